(** Property theorem about parallel cuts of ell in binary64 (C160). *)
From Coq Require Import ZArith Reals Lra Lia Bool List Psatz Floats.SpecFloat.
From Flocq Require Import Core.Core IEEE754.BinarySingleNaN.
From Verif Require Import Base M_Drivers M_Ell S_Ell S_LinAlg P_LinAlg M_Float P_Float P_Float2 S_Float S_EllF S_EllPar P_FSum P_EllCalc P_Ell P_EllF P_EllF2 P_EllF3 P_EllF4 T_Float T_Float2 T_Float7.
Import ListNotations.
Local Open Scope R_scope.

Lemma constsp64 h e : pow2 (-50) <= h <= / 1024 -> (2 <= e_n e)%nat /\ (Z.of_nat (e_n e) <= 2 ^ 20)%Z -> built64p e ->
  let N := IZR (Z.of_nat (e_n e)) in
  built64 e /\ (is_finite (e_halfN e) = true /\ B2R (e_halfN e) = N / 2) /\ fra h 1 (e_c3 e) (N / (N + 1)).
Proof.
  intros Hh Hn (val & x & e0 & E & A1 & A2 & A3 & -> & ->) N. split; [exists val, x, e0; auto|]. clear A1 A2 A3. set (n := e_n e) in *.
  assert (NN : 2 <= N <= 1048576) by (unfold N; split; [apply IZR_le; lia|change 1048576 with (IZR (2 ^ 20)); apply IZR_le; lia]).
  destruct (fint_exact (Z.of_nat n)) as [F1 E1]; [lia|]. destruct (fint_exact (Z.of_nat n + 1)) as [F2 E2]; [lia|]. destruct (fint_exact 2) as [F4 E4]; [lia|].
  rewrite plus_IZR in E2. fold N in E1, E2.
  unfold ell_init in E. change (@ndiv b64 FNum) with fdivr in E. change (@nofZ b64 FNum) with (fun z => fmake z 0) in E. change (@nofnat b64 FNum n) with (fmake (Z.of_nat n) 0) in E.
  change (@two b64 FNum) with (fmake 2 0) in E. cbv zeta beta in E.
  assert (D2 : forall a, fdivr a (fmake 2 0) = Ok (fdiv a (fmake 2 0))) by (intros a; apply fdivr_ok; [exact F4|rewrite E4; lra]).
  assert (D1 : forall a, fdivr a (fmake (Z.of_nat n + 1) 0) = Ok (fdiv a (fmake (Z.of_nat n + 1) 0))) by (intros a; apply fdivr_ok; [exact F2|rewrite E2; lra]).
  rewrite !D2 in E. cbn [bind] in E. rewrite !D1 in E.
  match type of E with bind ?d _ = _ => destruct d; cbn [bind] in E; [|discriminate E] end.
  match type of E with Ok ?r = Ok _ => assert (EE : e0 = r) by congruence end. rewrite EE. cbn [e_halfN e_c3]. split.
  - destruct (fdiv_exact (fmake (Z.of_nat n) 0) (fmake 2 0) F1) as [ED FD].
    + rewrite E4. lra.
    + rewrite E1, E4. change (N / 2) with (IZR (Z.of_nat n) * pow2 (-1)). apply fmt_scaled; lia.
    + rewrite E1, E4, Rabs_pos_eq by lra. apply Rle_lt_trans with (pow2 20); [change (pow2 20) with 1048576; lra|apply bpow_lt; lia].
    + rewrite E1, E4 in ED. auto.
  - assert (C : / 2 <= N / (N + 1) <= 1) by (split; apply Rmult_le_reg_r with (N + 1); try lra; replace (N / (N + 1) * (N + 1)) with N by (field; lra); lra).
    assert (P3 : 1 <= pow2 1023) by (change 1 with (pow2 0); apply bpow_le; lia). assert (P0 : pow2 (-1000) <= / 2) by (change (/ 2) with (pow2 (-1)); apply bpow_le; lia).
    destruct (fdiv_rnd (fmake (Z.of_nat n) 0) (fmake (Z.of_nat n + 1) 0) F1) as [ED FD]; [rewrite E2; lra|rewrite E1, E2, Rabs_pos_eq; lra|].
    split; [exact FD|]. rewrite ED, E1, E2. replace 1 with (0 + 1) at 1 by ring. apply ra_rnd; [exact Hh|apply ra_refl; lra|lra|lra].
Qed.

Lemma fsub_neg (x y : b64) : is_finite x = true -> is_finite y = true -> Bltb (fsub x y) fzero = true -> B2R x < B2R y.
Proof.
  intros Fx Fy L. apply Rnot_le_lt. intros HL. pose proof (Bminus_correct 53 1024 prec64 emax64 mode_NE x y Fx Fy) as C. cbn [round_mode] in C.
  match type of C with (if ?b then _ else _) => destruct b eqn:Eb end.
  - destruct C as (C1 & C2 & _). change (Bminus mode_NE x y) with (fsub x y) in *. rewrite f64_ltb in L by (exact C2 || reflexivity).
    rewrite C1 in L. change (B2R fzero) with 0 in L. rewrite Rlt_bool_false in L; [discriminate L|]. apply rnd_ge; [lra|apply generic_format_0].
  - destruct C as (C1 & C2). change (Bminus mode_NE x y) with (fsub x y) in *.
    assert (Sg' : Bsign x = true -> B2R x <= 0) by (destruct x as [s|s| |[] m e Hb]; intros Hs; try discriminate Hs; try (cbn; lra); unfold B2R; apply F2R_le_0; cbn; lia).
    assert (Ty : Bsign y = false -> 0 <= B2R y) by (destruct y as [s|s| |[] m e Hb]; intros Hs; try discriminate Hs; try (cbn; lra); unfold B2R; apply F2R_ge_0; cbn; lia).
    assert (Ne : B2R x - B2R y <> 0).
    { intros E. rewrite E, round_0, Rabs_R0 in Eb by typeclasses eauto. rewrite Rlt_bool_true in Eb; [discriminate Eb|apply bpow_gt_0]. }
    destruct (Bsign x) eqn:Sx.
    + destruct (Bsign y) eqn:Sy; [discriminate C2|]. specialize (Sg' eq_refl). specialize (Ty eq_refl). lra.
    + assert (E : fsub x y = B754_infinity false) by (apply B2SF_inj; rewrite C1; reflexivity). rewrite E in L. discriminate L.
Qed.

Section Par.
Variables (h M G X eps : R) (dotf : nat -> (nat -> b64) -> (nat -> b64) -> b64) (w : memory b64) (e : ell b64) (g : nat -> b64) (b0 b1 : b64).
Hypothesis HD : fdot_any dotf.
Hypothesis HB : built64p e.
Hypothesis HS : scaled64 h M G X (w, e) g b0.
Hypothesis HPar : par64 h eps e g b0 b1.
Let n := e_n e.
Let Q := fun i j => B2R (e_Q e i j).
Let gr := fun i => B2R (g i).
Let kappa := B2R (e_kappa e).
Let x := fun i => B2R (w (e_xc e) i).
Let om := bf n Q gr gr.

Lemma par_upd : B2R b0 <= B2R b1 -> B2R b0 <= sqrt (reach2 e g) ->
  (exists tsq, @ell_update b64 (FNumD dotf) (w, e) (g, BArr [b0; b1]) = Ok ((w, e), (nosoln, tsq))) \/
  exists st' tsq r0 s0 d0 y, @ell_update b64 (FNumD dotf) (w, e) (g, BArr [b0; b1]) = Ok (st', (success, tsq)) /\
    step_ok (kappa * om) (B2R b0) y r0 s0 d0 /\ Rmin (B2R b1) (sqrt (kappa * om)) <= y /\
    e_n (snd st') = n /\ e_xc (snd st') = e_xc e /\
    (forall i, (i < n)%nat -> is_finite (fst st' (e_xc e) i) = true /\
       Rabs (B2R (fst st' (e_xc e) i) - (x i - r0 / om * mvr n Q gr i)) <= 1280 * eps * sqrt (kappa * M) + uro * X) /\
    is_finite (e_kappa (snd st')) = true /\
    (forall i j, (i < n)%nat -> (j < n)%nat -> is_finite (e_Q (snd st') i j) = true /\
       Rabs (B2R (e_kappa (snd st')) * B2R (e_Q (snd st') i j) - kappa * d0 * (Q i j - s0 / om * (mvr n Q gr i * mvr n Q gr j))) <= 6144 * eps * (kappa * M)).
Proof.
  intros B01 B0T. destruct HS as (Hn & HQ & Hg & Hx & [Fk Rk] & [Fb Rb] & Hs & Hp & RM & RG & RX & Hom & Hh1). destruct HPar as (Fb1 & B1 & He & Heps & Hc).
  assert (HH : pow2 (-50) <= h <= / 1024) by (apply Hh with (e := e) (g := g) (M := M) (G := G); try assumption; intros; apply HQ || apply Hg; assumption).
  destruct (constsp64 h e HH Hn HB) as (HB' & Hhf & Hc3). destruct (consts64 h e HH Hn HB') as (Hp1 & Hc1 & Hc2).
  assert (HP : 0 < h) by (assert (0 < pow2 (-50)) by apply bpow_gt_0; lra).
  assert (TE : fra h 3 (fmul (e_kappa e) (dotf n g (fun i => dotf n (e_Q e i) g))) (kappa * om) /\ pow2 (-850) <= kappa * om <= pow2 850).
  { apply (T_err h dotf e g M G HD Hn); try assumption; intros; apply HQ || apply Hg; assumption. }
  destruct TE as [TE TR]. change (reach2 e g) with (kappa * om) in *.
  set (T := fmul (e_kappa e) (dotf n g (fun i => dotf n (e_Q e i) g))) in *.
  destruct (ll64 h dotf e T b0 b1 (kappa * om) eps HH Hn Hp1 Hhf Hc1 Hc2 Hc3 TE TR Fb Fb1) as [E|(rho & sigma & delta & r0 & s0 & d0 & y & E & ST & Y & R0 & D0 & [Fr Er] & [Fs Es] & [Fd Ed])]; try assumption; try lra.
  - left. exists T. unfold ell_update. change (@ndot b64 (FNumD dotf)) with dotf. change (dotf (e_n e) g (@mv b64 (FNumD dotf) (e_n e) (e_Q e) g)) with (dotf n g (fun i => dotf n (e_Q e i) g)).
    change (@nmul b64 (FNumD dotf) (e_kappa e) (dotf n g (fun i => dotf n (e_Q e i) g))) with T. cbn [calc_ll]. rewrite E. reflexivity.
  - right. destruct (upd_abs h dotf e g M G HD Hn) with (w := w) (X := X) (beta := BArr [b0; b1]) (ee := 256 * eps) (rho := rho) (sigma := sigma) (delta := delta) (r0 := r0) (s0 := s0) (d0 := d0)
      as (st' & tsq & U & EN & EX & CEN & FK & MAT); try assumption; try (intros; apply HQ || apply Hg || apply Hx; assumption).
    + assert (pow2 (-18) = / 262144) by reflexivity. lra.
    + apply ST.
    + split; [apply ST|exact D0].
    + exists st', tsq, r0, s0, d0, y. split; [exact U|]. split; [exact ST|]. split; [apply Y|]. split; [exact EN|]. split; [exact EX|].
      split; [|split; [exact FK|]].
      * intros i Hi. destruct (CEN i Hi) as [A B]. split; [exact A|]. eapply Rle_trans; [exact B|]. right. unfold kappa. ring.
      * intros i j Hi Hj. destruct (MAT i j Hi Hj) as [A B]. split; [exact A|]. eapply Rle_trans; [exact B|]. right. unfold kappa. ring.
Qed.
End Par.

(** ** C160: how much a successful update with a parallel cut can lose.  Whatever the summation order of the dot
    products, every point of the old set between the two sides of the cut stays within the support of the new set, up to
    6144 eps kappa M under the root and 1280 eps sqrt (kappa M) + 2^-53 X outside it, in every direction. *)
Theorem C160_parallel_loss h M G X eps dotf w e g b0 b1 st' tsq a z :
  fdot_any dotf -> built64p e -> scaled64 h M G X (w, e) g b0 -> par64 h eps e g b0 b1 ->
  @ell_update b64 (FNumD dotf) (w, e) (g, BArr [b0; b1]) = Ok (st', (success, tsq)) ->
  mem64 (w, e) z -> sat64 (w, e) g b0 z -> far64 (w, e) g b1 z ->
  let n := e_n e in let kM := B2R (e_kappa e) * M in
  e_n (snd st') = n /\
  (is_finite (e_kappa (snd st')) = true /\ (forall i, (i < n)%nat -> is_finite (fst st' (e_xc (snd st')) i) = true) /\
   forall i j, (i < n)%nat -> (j < n)%nat -> is_finite (e_Q (snd st') i j) = true) /\
  Rabs (dot n a (fun i => z i - B2R (fst st' (e_xc (snd st')) i)))
    <= sqrt (width2 (snd st') a + 6144 * eps * kM * (norm1 n a * norm1 n a)) + norm1 n a * (1280 * eps * sqrt kM + bpow radix2 (-53) * X).
Proof.
  intros HD HB HS HPar U Hz Hc Hf. cbv zeta.
  assert (HS' := HS). destruct HS' as (Hn & HQ & Hg & Hx & [Fk Rk] & [Fb Rb] & Hs & Hp & RM & RG & RX & Hom & Hh1).
  assert (EPS : 0 < eps) by apply HPar.
  set (n := e_n e) in *. set (Q := fun i j => B2R (e_Q e i j)) in *. set (gr := fun i => B2R (g i)) in *. set (kappa := B2R (e_kappa e)) in *.
  set (x := fun i => B2R (w (e_xc e) i)).
  assert (OP : 0 < bf n Q gr gr) by (apply om_pos with (h := h) (e := e) (M := M) (G := G); try assumption; intros; apply HQ || apply Hg; assumption).
  assert (HT : 0 <= kappa * bf n Q gr gr) by (assert (0 < pow2 (-200)) by apply bpow_gt_0; nra).
  cbn [mem64] in Hz. fold n Q kappa x in Hz. cbn [sat64] in Hc. fold n gr in Hc. cbn [far64] in Hf. fold n gr in Hf.
  change (dot n gr (fun i => z i - x i) + B2R b0 <= 0) in Hc. change (0 <= dot n gr (fun i => z i - x i) + B2R b1) in Hf.
  assert (RNG := in_ell_range n Q kappa x z gr Hs Hp Hz). cbv zeta in RNG. set (al := dot n gr (fun i => z i - x i)) in *.
  set (tau := sqrt (kappa * bf n Q gr gr)).
  assert (TT : tau * tau = kappa * bf n Q gr gr) by (apply sqrt_sqrt; exact HT). assert (T0 : 0 <= tau) by apply sqrt_pos.
  assert (AT : - tau <= al) by nra.
  assert (BT : B2R b0 <= tau) by lra. assert (BB : B2R b0 <= B2R b1) by lra.
  destruct (par_upd h M G X eps dotf w e g b0 b1 HD HB HS HPar BB BT) as [(q & E)|(st2 & q & r0 & s0 & d0 & y & E & SO & Y & EN & EX & CEN & FK & MAT)]; rewrite U in E; [discriminate E|].
  assert (st2 = st') by congruence. subst st2. clear E.
  split; [exact EN|]. rewrite EX. split; [split; [exact FK|split; intros; [apply CEN|apply MAT]; assumption]|].
  fold n Q gr kappa x in SO, Y, CEN, MAT.
  set (om := bf n Q gr gr) in *. set (Q1 := fun i j => Q i j - s0 / om * (mvr n Q gr i * mvr n Q gr j)).
  set (x1 := fun i => x i - r0 / om * mvr n Q gr i). fold tau in Y.
  assert (AY : 0 <= al + y) by (revert Y; unfold Rmin; destruct (Rle_dec (B2R b1) tau); intros Y; lra).
  assert (IN1 : in_ell n Q1 (kappa * d0) x1 z).
  { apply (step_keep n Q kappa x gr Hs Hp OP r0 s0 d0 (B2R b0) y z SO Hz). cbv zeta. fold al. nra. }
  assert (S01 : 0 <= s0 <= 1) by apply SO.
  assert (R1 := in_ell_range n Q1 (kappa * d0) x1 z a (Q1_sym n Q gr Hs s0) (Q1_psd n Q gr Hs Hp OP s0 S01) IN1). cbv zeta in R1.
  set (A1 := norm1 n a) in *. assert (A0 : 0 <= A1) by apply norm1_nn.
  assert (KM : 0 < kappa * M) by (assert (0 < pow2 (-200)) by apply bpow_gt_0; apply Rmult_lt_0_compat; lra).
  assert (X0 : 0 <= X) by (eapply Rle_trans; [apply Rabs_pos|apply (proj2 (Hx 0%nat ltac:(lia)))]).
  set (k1 := B2R (e_kappa (snd st'))) in *. assert (EKM : 0 < eps * (kappa * M)) by (apply Rmult_lt_0_compat; lra).
  assert (W : Rabs (width2 (snd st') a - kappa * d0 * bf n Q1 a a) <= A1 * A1 * (6144 * eps * (kappa * M))).
  { unfold width2. rewrite EN. fold n k1.
    replace (k1 * bf n (fun i j => B2R (e_Q (snd st') i j)) a a - kappa * d0 * bf n Q1 a a)
      with (bf n (fun i j => k1 * B2R (e_Q (snd st') i j) - kappa * d0 * Q1 i j) a a).
    2: { rewrite !bf_sums, <- !rsum_scal_l, <- rsum_minus. apply rsum_ext; intros i _. rewrite <- !rsum_scal_l, <- rsum_minus. apply rsum_ext; intros; ring. }
    apply (bf_norm1 n (fun i j => k1 * B2R (e_Q (snd st') i j) - kappa * d0 * Q1 i j) a); [lra|]. intros i j Hi Hj. exact (proj2 (MAT i j Hi Hj)). }
  assert (V : Rabs (dot n a (fun i => x1 i - B2R (fst st' (e_xc e) i))) <= A1 * (1280 * eps * sqrt (kappa * M) + uro * X)).
  { apply (dot_norm1 n a (fun i => x1 i - B2R (fst st' (e_xc e) i))).
    - assert (0 <= eps * sqrt (kappa * M)) by (apply Rmult_le_pos; [lra|apply sqrt_pos]). assert (0 <= uro * X) by (apply Rmult_le_pos; [apply bpow_ge_0|exact X0]). lra.
    - intros i Hi. rewrite Rabs_minus_sym. exact (proj2 (CEN i Hi)). }
  replace (dot n a (fun i => z i - B2R (fst st' (e_xc e) i))) with (dot n a (fun i => z i - x1 i) + dot n a (fun i => x1 i - B2R (fst st' (e_xc e) i))).
  2: { rewrite <- dot_plus_r. apply dot_ext; [reflexivity|]. intros; ring. }
  eapply Rle_trans; [apply Rabs_triang|]. apply Rplus_le_compat; [|exact V].
  rewrite <- sqrt_Rsqr_abs. apply sqrt_le_1_alt. unfold Rsqr. apply Rabs_le_inv in W. lra.
Qed.
Print Assumptions C160_parallel_loss.

(** Such an update never raises: it succeeds, or it leaves everything as it is and reports nosoln. *)
Theorem C160_parallel_returns h M G X eps dotf w e g b0 b1 :
  fdot_any dotf -> built64p e -> scaled64 h M G X (w, e) g b0 -> par64 h eps e g b0 b1 ->
  B2R b0 <= B2R b1 -> B2R b0 * B2R b0 <= reach2 e g ->
  exists st' s tsq, @ell_update b64 (FNumD dotf) (w, e) (g, BArr [b0; b1]) = Ok (st', (s, tsq)) /\
    (s = success \/ s = nosoln /\ st' = (w, e)).
Proof.
  intros HD HB HS HPar BB BT.
  assert (BT' : B2R b0 <= sqrt (reach2 e g)).
  { rewrite <- (sqrt_square (B2R b0)) by apply HS. apply sqrt_le_1_alt, BT. }
  destruct (par_upd h M G X eps dotf w e g b0 b1 HD HB HS HPar BB BT') as [(q & E)|(st2 & q & r0 & s0 & d0 & y & E & _)]; eauto 8.
Qed.
Print Assumptions C160_parallel_returns.

(** and a reported nosoln: the sides of the cut are in the wrong order, or no point of the set is inside the cut
    moved out by 8 h beta0 *)
Theorem C160_parallel_nosoln h M G X dotf w e g b0 b1 st' tsq z :
  fdot_any dotf -> scaled64 h M G X (w, e) g b0 -> is_finite b1 = true ->
  @ell_update b64 (FNumD dotf) (w, e) (g, BArr [b0; b1]) = Ok (st', (nosoln, tsq)) ->
  mem64 (w, e) z ->
  B2R b1 < B2R b0 \/ 0 < dot (e_n e) (fun i => B2R (g i)) (fun i => z i - B2R (w (e_xc e) i)) + B2R b0 * (1 + 8 * h).
Proof.
  intros HD HS F1 U Hz.
  assert (Fb0 : is_finite b0 = true) by apply HS.
  unfold ell_update in U. cbn [calc_ll] in U. set (om := @ndot b64 (FNumD dotf) (e_n e) g (@mv b64 (FNumD dotf) (e_n e) (e_Q e) g)) in *. set (T := @nmul b64 (FNumD dotf) (e_kappa e) om) in *.
  unfold calc_ll_core in U. destruct (@ndiv b64 (FNumD dotf) b1 T) as [b1t|]; [|discriminate U]. cbn [bind] in U. cbv zeta in U.
  match type of U with context [if ?c then _ else _] => destruct c end.
  - right. apply (C142_nosoln_margin h M G X dotf w e g b0 st' tsq z HD HS); [|exact Hz]. unfold ell_update. cbn [calc_ll]. fold om. fold T. exact U.
  - match type of U with context [if ?c then _ else _] => destruct c eqn:L end.
    + left. apply fsub_neg; assumption.
    + exfalso. unfold calc_ll_cc in U. cbv zeta in U.
      repeat match type of U with
      | context [bind (bind (bind ?d _) _) _] => destruct d; cbn [bind] in U; [|discriminate U]
      | context [bind (bind ?d _) _] => destruct d; cbn [bind] in U; [|discriminate U]
      | context [bind (if ?c then _ else _) _] => destruct c
      end; cbn [bind] in U; try discriminate U; cbv zeta in U;
      repeat match type of U with context [bind ?d _] => destruct d; cbn [bind] in U; [|discriminate U] end; discriminate U.
Qed.
Print Assumptions C160_parallel_nosoln.

(** Non-vacuity: the fresh unit disc in the plane, the cut (1, 0) with the sides 1/4 and 1/2, h = 2^-47 and eps = 2^-40;
    the update succeeds, and the point (-3/8, 0) lies between the sides. *)
Definition ell2_infop (w : memory b64) (g : nat -> b64) (b0 b1 : b64) (x : res (ell b64)) : option (nat * list spec_float * status) :=
  match x with
  | Ok e => match @ell_update b64 (FNumD fdot_seq) (w, e) (g, BArr [b0; b1]) with
            | Ok (_, (s, _)) => Some (e_n e, ell2_of e w, s)
            | Raise _ => None end
  | Raise _ => None end.
Example C160_ex : exists (e : ell b64) w g b0 b1 st' tsq z,
  fdot_any fdot_seq /\ @ell_init b64 FNum (VScalar (fmake 1 0)) 2 0%nat = Ok e /\ built64p e /\
  scaled64 (bpow radix2 (-47)) 1 1 0 (w, e) g b0 /\ par64 (bpow radix2 (-47)) (bpow radix2 (-40)) e g b0 b1 /\
  @ell_update b64 (FNumD fdot_seq) (w, e) (g, BArr [b0; b1]) = Ok (st', (success, tsq)) /\
  B2R b0 <= B2R b1 /\ B2R b0 * B2R b0 <= reach2 e g /\
  mem64 (w, e) z /\ sat64 (w, e) g b0 z /\ far64 (w, e) g b1 z.
Proof.
  set (g := fun i => if (i =? 0)%nat then fmake 1 0 else fzero). set (w := fun (_ i : nat) => fzero).
  assert (X : ell2_infop w g (fmake 1 (-2)) (fmake 1 (-1)) (@ell_init b64 FNum (VScalar (fmake 1 0)) 2 0%nat) =
    Some (2%nat, map B2SF [fmake 1 0; fmake 1 0; fzero; fzero; fmake 1 0; fzero; fzero], success)) by (vm_compute; reflexivity).
  revert X. destruct (@ell_init b64 FNum (VScalar (fmake 1 0)) 2 0%nat) as [e|] eqn:E; [|discriminate]. cbn [ell2_infop].
  match goal with |- match ?u with Ok _ => _ | Raise _ => _ end = _ -> _ => destruct u as [[st' [s tsq]]|] eqn:U; [|discriminate] end. intros X.
  unfold ell2_of in X. cbn [map] in X.
  assert (En : e_n e = 2%nat) by congruence. assert (Es : s = success) by congruence.
  assert (I : forall x y : b64, B2SF x = B2SF y -> x = y) by (intros x y; apply B2SF_inj).
  assert (X1 : e_kappa e = fmake 1 0) by (apply I; congruence).
  assert (X2 : e_Q e 0%nat 0%nat = fmake 1 0) by (apply I; congruence).
  assert (X3 : e_Q e 0%nat 1%nat = fzero) by (apply I; congruence).
  assert (X4 : e_Q e 1%nat 0%nat = fzero) by (apply I; congruence).
  assert (X5 : e_Q e 1%nat 1%nat = fmake 1 0) by (apply I; congruence).
  clear X I. subst s.
  set (z := fun i => if (i =? 0)%nat then - (3 / 8) else 0).
  assert (P200 : pow2 (-200) <= 1 <= pow2 200) by (change 1 with (pow2 0); split; apply bpow_le; lia).
  assert (R1 : B2R (fmake 1 0) = 1) by (rewrite fmakeR by lia; change (pow2 0) with 1; ring).
  assert (R4 : B2R (fmake 1 (-2)) = / 4) by (rewrite fmakeR by lia; change (pow2 (-2)) with (/ 4); ring).
  assert (R2 : B2R (fmake 1 (-1)) = / 2) by (rewrite fmakeR by lia; change (pow2 (-1)) with (/ 2); ring).
  assert (RE : reach2 e g = 1).
  { unfold reach2. rewrite En, bf2, X1, X2, X3, X4, X5. unfold g. cbn [Nat.eqb]. rewrite R1. change (B2R fzero) with 0. ring. }
  exists e, w, g, (fmake 1 (-2)), (fmake 1 (-1)), st', tsq, z. split; [exact fnum_dot_any|]. split; [reflexivity|]. split; [|split; [|split; [|split; [exact U|]]]].
  - exists (VScalar (fmake 1 0)), 0%nat, e. rewrite En. split; [exact E|]. auto.
  - unfold scaled64. cbv zeta. rewrite En.
    split; [split; lia|]. split.
    { intros i j Hi Hj. assert (Z0 : Rabs 0 <= 1) by (rewrite Rabs_R0; lra). assert (Z1 : Rabs 1 <= 1) by (rewrite Rabs_R1; lra).
      destruct i as [|[|i]]; [| |lia]; (destruct j as [|[|j]]; [| |lia]); rewrite ?X2, ?X3, ?X4, ?X5, ?R1; change (B2R fzero) with 0; split; (reflexivity || assumption). }
    split.
    { intros i Hi. assert (Z0 : Rabs 0 <= 1) by (rewrite Rabs_R0; lra). assert (Z1 : Rabs 1 <= 1) by (rewrite Rabs_R1; lra).
      destruct i as [|[|i]]; [| |lia]; unfold g; cbn [Nat.eqb]; rewrite ?R1; change (B2R fzero) with 0; split; (reflexivity || assumption). }
    split. { intros i Hi. split; [reflexivity|]. change (Rabs 0 <= 0). rewrite Rabs_R0. lra. }
    split. { rewrite X1, R1. split; [reflexivity|lra]. }
    split. { rewrite R4. split; [reflexivity|]. assert (1 <= pow2 1000) by (change 1 with (pow2 0); apply bpow_le; lia). lra. }
    split. { intros i j Hi Hj. destruct i as [|[|i]]; [| |lia]; (destruct j as [|[|j]]; [| |lia]); rewrite ?X3, ?X4; reflexivity. }
    split. { intros u. rewrite bf2, X2, X3, X4, X5, R1. change (B2R fzero) with 0. assert (0 <= u 0%nat * u 0%nat) by apply Rle_0_sqr. assert (0 <= u 1%nat * u 1%nat) by apply Rle_0_sqr. lra. }
    split; [exact P200|]. split; [exact P200|]. split; [apply bpow_ge_0|]. split.
    + rewrite bf2, X2, X3, X4, X5. unfold g. cbn [Nat.eqb]. rewrite R1. change (B2R fzero) with 0.
      change (IZR (Z.of_nat 2)) with 2. replace (pow2 (-47)) with (8 * pow2 (-50)) by (change 8 with (pow2 3); rewrite <- bpow_plus; reflexivity). lra.
    + change (/ 1024) with (pow2 (-10)). apply bpow_le. lia.
  - unfold par64. cbv zeta. rewrite RE, R4, R2, sqrt_1. split; [reflexivity|].
    assert (P50 : 1 <= pow2 50) by (change 1 with (pow2 0); apply bpow_le; lia).
    assert (P47 : pow2 (-40) = 128 * pow2 (-47)) by (change 128 with (pow2 7); rewrite <- bpow_plus; reflexivity). assert (P0 : 0 < pow2 (-47)) by apply bpow_gt_0.
    split; [lra|]. split; [lra|]. split; [split; [apply bpow_gt_0|apply bpow_le; lia]|]. rewrite P47. lra.
  - rewrite RE, R4, R2. split; [lra|]. split; [lra|]. unfold mem64, sat64, far64. rewrite En. split; [|split].
    + exists z. split.
      * intros i Hi. unfold mvr, dot. destruct i as [|[|i]]; [| |lia]; cbn [rsum]; rewrite ?X2, ?X3, ?X4, ?X5; change (w (e_xc e)) with (fun _ : nat => fzero); cbv beta;
          rewrite R1; change (B2R fzero) with 0; lra.
      * rewrite bf2, X1, X2, X3, X4, X5, R1. change (B2R fzero) with 0. unfold z. cbn [Nat.eqb]. lra.
    + unfold dot. cbn [rsum]. change (w (e_xc e)) with (fun _ : nat => fzero). unfold g, z. cbn [Nat.eqb]. rewrite R1, R4. change (B2R fzero) with 0. lra.
    + unfold dot. cbn [rsum]. change (w (e_xc e)) with (fun _ : nat => fzero). unfold g, z. cbn [Nat.eqb]. rewrite R1, R2. change (B2R fzero) with 0. lra.
Qed.
