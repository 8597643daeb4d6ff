(** Property theorems about mle_oracle in binary64 (C186, C187). *)
From Coq Require Import ZArith Reals Lra Lia Bool List Psatz Floats.SpecFloat.
From Flocq Require Import Core.Core IEEE754.BinarySingleNaN.
From Verif Require Import Base M_Chol M_Lmi M_Profit M_Mle M_Drivers M_Ell S_Drivers P_Drivers T_Drivers S_Ell S_LinAlg P_LinAlg P_Chol P_Chol2 P_CholF P_CholF2 S_Lmi P_Lmi M_Float P_Float P_Float2 S_Float S_Float2 S_EllF S_EllRun P_FSum P_LmiF P_WitF P_WitF2 S_WitF P_RunF P_EllRun P_EllF P_EllF2 M_Examples P_CsdF M_ProfitF M_MleF S_MleF T_Float T_Float2 T_Float4 T_Float9 T_Float10 T_Float12 T_Float19.
Import ListNotations.
Local Open Scope R_scope.

(** ** chol_ext.sqrt after an accepted factorisation does not raise *)
Section Sqrt.
Context {A : Type} `{Num A}.
Lemma row_diag {G} (getA : G -> nat -> nat -> res (G * A)) : forall cnt start i j g T d g' T' d', (j + cnt = i)%nat ->
  chol_row getA cnt start i j g T d = Ok (g', T', d') -> forall k, (k < i)%nat -> T' k k = T k k.
Proof.
  induction cnt as [|cnt IH]; intros start i j g T d g' T' d' Hj HR k Hk; cbn [chol_row] in HR; [congruence|].
  apply bind_ok in HR as (q & _ & HR). apply bind_ok in HR as ([g1 a] & _ & HR).
  rewrite (IH start i (j + 1)%nat _ _ _ _ _ _ ltac:(lia) HR k Hk). unfold mset.
  destruct (Nat.eqb_spec k i); [lia|]. rewrite !andb_false_r, ?andb_false_l. reflexivity.
Qed.
Lemma rows_diag {G} (getA : G -> nat -> nat -> res (G * A)) : forall cnt i start g T g' T' p, (start <= i)%nat ->
  chol_rows getA false cnt i start g T = Ok (g', T', p) -> snd p = 0%nat ->
  (forall k, (k < i)%nat -> nltb nzero (T k k) = true) -> forall k, (k < i + cnt)%nat -> nltb nzero (T' k k) = true.
Proof.
  induction cnt as [|cnt IH]; intros i start g T g' T' p Hs HR Hp HT k Hk; cbn [chol_rows] in HR.
  - assert (T' = T) by congruence. subst T'. apply HT. lia.
  - apply bind_ok in HR as ([g1 d0] & _ & HR). apply bind_ok in HR as ([[g2 T1] d] & E & HR).
    assert (D := row_diag getA (i - start)%nat start i start _ _ _ _ _ _ ltac:(lia) E).
    destruct (nltb nzero d) eqn:Ed.
    + apply (IH (i + 1)%nat start g2 _ g' T' p ltac:(lia) HR Hp); [|lia]. intros k0 Hk0. unfold mset.
      destruct (Nat.eqb_spec k0 i) as [->|]; cbn [andb]; [exact Ed|]. rewrite D by lia. apply HT. lia.
    + cbn [negb] in HR. rewrite orb_true_r in HR. assert (p = (start, i + 1)%nat) by congruence. subst p. cbn [snd] in Hp. lia.
Qed.
Lemma factor_diag {G} (getA : G -> nat -> nat -> res (G * A)) g g' Q Q' : c_semi Q = false -> chol_factor getA g Q = Ok (g', Q', true) ->
  chol_is_spd Q' = true /\ c_n Q' = c_n Q /\ forall k, (k < c_n Q')%nat -> nltb nzero (c_T Q' k k) = true.
Proof.
  intros Es E. unfold chol_factor in E. apply bind_ok in E as ([[g1 T] p] & HR & E). rewrite Es in HR.
  assert (EQ : Q' = mk_chol (c_n Q) p (c_v Q) T false) by congruence.
  assert (Eb : chol_is_spd (mk_chol (c_n Q) p (c_v Q) T false) = true) by congruence. rewrite EQ. split; [exact Eb|]. split; [reflexivity|].
  cbn [c_n c_T]. unfold chol_is_spd in Eb. cbn [c_p] in Eb. apply Nat.eqb_eq in Eb. intros k Hk.
  apply (rows_diag getA _ _ _ _ _ _ _ _ (le_n 0) HR Eb); [intros; lia|exact Hk].
Qed.
Lemma sqrt_total n (T : nat -> nat -> A) : forall cnt i M, (forall k, (i <= k < i + cnt)%nat -> exists r, nsqrt (T k k) = Ok r) ->
  exists U, sqrt_rows cnt i n T M = Ok U.
Proof.
  induction cnt as [|cnt IH]; intros i M HT; cbn [sqrt_rows]; [eauto|].
  destruct (HT i ltac:(lia)) as (r & ->). cbn [bind]. apply IH. intros k Hk. apply HT. lia.
Qed.
End Sqrt.
Lemma pos_nneg (d : b64) : Bltb fzero d = true -> Bltb d fzero = false.
Proof. destruct d as [|[]| |[]]; try reflexivity; discriminate. Qed.
Lemma lmi0_sqrt dot F n (Q Q' : chol b64) x : c_semi Q = false -> lmi0_64 dot F n Q x = Ok (Q', None) -> exists U, @chol_sqrt b64 (FNumD dot) Q' = Ok U.
Proof.
  intros Es HC. unfold lmi0_call in HC. apply bind_ok in HC as ([[g1 Q1] b] & E & HC). destruct b.
  2: { apply bind_ok in HC as ([Q2 ep] & _ & HC). discriminate HC. }
  assert (Q1 = Q') by congruence. subst Q1. destruct (factor_diag _ _ _ _ _ Es E) as (S1 & _ & S2).
  unfold chol_sqrt. rewrite S1. apply sqrt_total. intros k Hk. exists (fsqrt (c_T Q' k k)).
  change (@nsqrt b64 (FNumD dot)) with fsqrtr. unfold fsqrtr. rewrite pos_nneg; [reflexivity|]. apply S2. lia.
Qed.

(** ** the sizes of 2 * Y *)
Lemma twice_R (y : b64) : is_finite y = true -> Rabs (B2R y) <= pow2 999 -> is_finite (fmul (fmake 2 0) y) = true /\ B2R (fmul (fmake 2 0) y) = 2 * B2R y.
Proof.
  intros Fy Hy. assert (E2 : B2R (fmake 2 0) = 2) by (rewrite fmakeR by lia; change (pow2 0) with 1; lra).
  destruct (fmul_exact (fmake 2 0) y eq_refl Fy) as [E F]; rewrite ?E2 in *.
  - rewrite Rmult_comm. apply fmt_double, fmt_b64.
  - rewrite Rabs_mult, (Rabs_right 2) by lra. apply Rle_lt_trans with (2 * pow2 999); [lra|]. change 2 with (pow2 1). rewrite <- bpow_plus. apply bpow_lt. lia.
  - split; [exact F|exact E].
Qed.
Definition twice (Y : nat -> nat -> b64) : nat -> nat -> b64 := fun i j => fmul (fmake 2 0) (Y i j).
Lemma data_entry m F Y x M i j : lmi_data m F Y x M -> M <= pow2 999 -> (i < m)%nat -> (j < m)%nat -> is_finite (Y i j) = true /\ Rabs (B2R (Y i j)) <= pow2 999.
Proof.
  intros [_ HD] HM Hi Hj. destruct (HD i j Hi Hj) as (FY & _ & HS). split; [exact FY|].
  match type of HS with _ + ?s <= _ => assert (N : 0 <= s) by (apply rsum_nonneg; intros; apply Rabs_pos) end. unfold matR in HS. lra.
Qed.
Lemma twice_data m F Y x M : (0 < m)%nat -> M <= pow2 999 -> lmi_data m F Y x M -> lmi_data m F (twice Y) x (2 * M).
Proof.
  intros H0 HM HD. assert (HE := fun i j => data_entry m F Y x M i j HD HM). destruct HD as [D1 D2]. split; [exact D1|].
  intros i j Hi Hj. destruct (D2 i j Hi Hj) as (_ & D3 & D4). destruct (HE i j Hi Hj) as [FY BY]. destruct (twice_R _ FY BY) as [F2 E2].
  split; [exact F2|]. split; [exact D3|]. unfold matR at 1, twice. rewrite E2, Rabs_mult, (Rabs_right 2) by lra.
  match type of D4 with _ + ?s <= _ => assert (N : 0 <= s) by (apply rsum_nonneg; intros; apply Rabs_pos) end. unfold matR in D4. lra.
Qed.
Lemma twice_mat m F Y x M i j : lmi_data m F Y x M -> M <= pow2 999 -> (i < m)%nat -> (j < m)%nat -> matR (twice Y) i j = 2 * matR Y i j.
Proof. intros HD HM Hi Hj. destruct (data_entry m F Y x M i j HD HM Hi Hj) as [FY BY]. apply (twice_R _ FY BY). Qed.
Lemma aff_bf m B B' Fs z v : (forall i j, (i < m)%nat -> (j < m)%nat -> B i j = B' i j) -> bf m (aff_mat B Fs z) v v = bf m (aff_mat B' Fs z) v v.
Proof.
  intros HB. rewrite !bf_sums. apply rsum_ext. intros i Hi. apply rsum_ext. intros j Hj. unfold aff_mat. rewrite (HB i j Hi Hj). reflexivity.
Qed.

(** ** C186: mle_oracle in binary64 *)
Definition mle_chols (m : nat) (o : chol b64 * chol b64) : Prop :=
  c_n (fst o) = m /\ c_semi (fst o) = false /\ c_n (snd o) = m /\ c_semi (snd o) = false.
(** s - t < 0 exactly when s < t, for all s and t that are not the same infinity *)
Lemma fsub_lt (s t : b64) : Bltb (fsub s t) fzero = true -> Bltb s t = true.
Proof.
  intros HL. destruct (is_finite s) eqn:Fs, (is_finite t) eqn:Ft.
  - assert (P := fsub_pos t s Ft Fs). rewrite (f64_ltb s t Fs Ft). apply Rlt_bool_true. apply P.
    pose proof (Bminus_correct 53 1024 prec64 emax64 mode_NE s t Fs Ft) as C1. cbn [round_mode] in C1.
    pose proof (Bminus_correct 53 1024 prec64 emax64 mode_NE t s Ft Fs) as C2. cbn [round_mode] in C2.
    assert (ER : Rabs (round radix2 (SpecFloat.fexp 53 1024) ZnearestE (B2R t - B2R s)) = Rabs (round radix2 (SpecFloat.fexp 53 1024) ZnearestE (B2R s - B2R t))).
    { replace (B2R t - B2R s) with (- (B2R s - B2R t)) by ring. rewrite round_NE_opp, Rabs_Ropp. reflexivity. }
    rewrite ER in C2. match type of C1 with (if ?b then _ else _) => destruct b eqn:Eb end.
    + destruct C1 as (V1 & F1 & _), C2 as (V2 & F2 & _). change (Bminus mode_NE s t) with (fsub s t) in *. change (Bminus mode_NE t s) with (fsub t s) in *.
      rewrite (f64_ltb (fsub s t) fzero F1 eq_refl), V1 in HL. rewrite (f64_ltb fzero (fsub t s) eq_refl F2), V2.
      destruct (Rlt_bool_spec (round radix2 (SpecFloat.fexp 53 1024) ZnearestE (B2R s - B2R t)) (B2R fzero)) as [L|]; [|discriminate HL].
      apply Rlt_bool_true. replace (B2R t - B2R s) with (- (B2R s - B2R t)) by ring. rewrite round_NE_opp. change (B2R fzero) with 0 in *. lra.
    + destruct C1 as (V1 & S1), C2 as (V2 & S2). change (Bminus mode_NE s t) with (fsub s t) in *. change (Bminus mode_NE t s) with (fsub t s) in *.
      destruct (fsub s t) as [|[]| |]; try discriminate V1; try discriminate HL.
      destruct (Bsign s) eqn:Es; [|discriminate V1]. destruct (Bsign t) eqn:Et; [discriminate S1|]. 
      destruct (fsub t s) as [|[]| |]; try discriminate V2. reflexivity.
  - destruct s as [|[]| |[]], t as [|[]| |[]]; try discriminate Fs; try discriminate Ft; try discriminate HL; reflexivity.
  - destruct s as [|[]| |[]], t as [|[]| |[]]; try discriminate Fs; try discriminate Ft; try discriminate HL; reflexivity.
  - destruct s as [|[]| |[]], t as [|[]| |[]]; try discriminate Fs; try discriminate Ft; try discriminate HL; reflexivity.
Qed.
Lemma flt_trans (s u t : b64) : Bltb s u = true -> Bltb u t = true -> Bltb s t = true.
Proof.
  intros H1 H2. destruct (is_finite s) eqn:Fs, (is_finite u) eqn:Fu, (is_finite t) eqn:Ft.
  1: { rewrite (f64_ltb s u Fs Fu) in H1. rewrite (f64_ltb u t Fu Ft) in H2. rewrite (f64_ltb s t Fs Ft).
       destruct (Rlt_bool_spec (B2R s) (B2R u)); [|discriminate]. destruct (Rlt_bool_spec (B2R u) (B2R t)); [|discriminate].
       apply Rlt_bool_true. lra. }
  all: destruct s as [|[]| |[]], u as [|[]| |[]], t as [|[]| |[]]; try discriminate; try reflexivity.
Qed.

(** One call.  It raises only when np.linalg.inv does.  A value is reported only below t, with gradient constant 0, at a
    point where both matrices are positive definite up to the backward error; a cut without a value comes either from a
    matrix that is not positive definite by more than that error, or from a value that is not below t. *)
Theorem C186_mle64_call :
  forall dot fe fl fr np_inv m Sig Y o x t M,
  fdot_any dot -> ext64 dot -> mle_chols m o ->
  (0 < m)%nat -> (Z.of_nat m <= 2 ^ 20)%Z -> (Z.of_nat (length Sig) <= 2 ^ 20)%Z -> M <= pow2 889 ->
  sym m (matR Y) -> all_sym m (matsR Sig) -> lmi_data m Sig Y x M ->
  let n := length Sig in
  let good := pd_upto m (lmi_slack m n (2 * M)) (mle_upper Sig Y (vecR x)) /\ pd_upto m (lmi_slack m n M) (mle_lower Sig (vecR x)) in
  match mle64_call dot fe fl fr np_inv Sig Y m o x t with
  | Raise e => good /\ exists U, np_inv m U = Raise e
  | Ok (o', ((g, f), t1)) => mle_chols m o' /\
      match t1 with
      | Some s => good /\ Bltb s t = true /\ f = fzero
      | None =>
          (good /\ Bltb f fzero = false /\ exists s, f = fsub s t) \/
          ((is_finite f = true -> 0 <= B2R f) /\
           (not_pd_by m (lmi_slack m n (2 * M)) (mle_upper Sig Y (vecR x)) \/
            pd_upto m (lmi_slack m n (2 * M)) (mle_upper Sig Y (vecR x)) /\ not_pd_by m (lmi_slack m n M) (mle_lower Sig (vecR x))))
      end
  end.
Proof.
  intros dot fe fl fr np_inv m Sig Y [Q Q0] x t M Hd NE (C1 & C2 & C3 & C4) H0 Hm HF HM SY SF HD n good. cbn [fst snd] in *.
  assert (HM9 : M <= pow2 999) by (eapply Rle_trans; [exact HM|apply bpow_le; lia]).
  assert (HM1 : M <= pow2 1000) by (eapply Rle_trans; [exact HM|apply bpow_le; lia]).
  assert (HM2 : 2 * M <= pow2 890) by (apply Rle_trans with (2 * pow2 889); [lra|]; change 2 with (pow2 1) at 1; rewrite <- bpow_plus; apply bpow_le; lia).
  assert (HM3 : 2 * M <= pow2 1000) by (eapply Rle_trans; [exact HM2|apply bpow_le; lia]).
  assert (HT := twice_data m Sig Y x M H0 HM9 HD).
  assert (TM := fun i j => twice_mat m Sig Y x M i j HD HM9).
  assert (ST : sym m (matR (twice Y))) by (intros i j Hi Hj; rewrite !TM by assumption; rewrite (SY i j Hi Hj); reflexivity).
  assert (EB : forall v, bf m (aff_mat (matR (twice Y)) (matsR Sig) (vecR x)) v v = bf m (mle_upper Sig Y (vecR x)) v v).
  { intros v. apply aff_bf. exact TM. }
  destruct (C130_lmi64_decides dot m Sig (twice Y) Q x (2 * M) Hd NE C1 C2 H0 Hm HF HM3 ST SF HT) as (Q' & c & E & K1 & K2 & Hc).
  unfold mle64_call, mle_call. change (fun i j => @nmul b64 (FNumD dot) (@nofZ b64 (FNumD dot) 2) (Y i j)) with (twice Y). rewrite E. cbn [bind].
  destruct c as [[g f]|].
  { split; [repeat split; assumption|]. right. destruct Hc as [P1 P2]. split; [exact P1|]. left. destruct (P2 (or_intror HM2)) as (z & Hz & A).
    exists z. split; [exact Hz|]. rewrite <- EB. exact A. }
  assert (GU : pd_upto m (lmi_slack m n (2 * M)) (mle_upper Sig Y (vecR x))) by (intros z Hz; rewrite <- EB; exact (Hc z Hz)). clear Hc.
  destruct (C130_lmi0_64_decides dot m Sig Q0 x M Hd NE C3 C4 H0 Hm HF HM1 SF (lmi_data_zero _ _ _ _ _ HD)) as (Q0' & c & E0 & K3 & K4 & Hc).
  rewrite E0. cbn [bind]. destruct c as [[g f]|].
  { split; [repeat split; assumption|]. right. destruct Hc as [P1 P2]. split; [exact P1|]. right. split; [exact GU|]. apply P2. right. eapply Rle_trans; [exact HM|apply bpow_le; lia]. }
  assert (GO : good) by (split; [exact GU|exact Hc]).
  destruct (lmi0_sqrt dot Sig _ Q0 Q0' x C4 E0) as (U & EU). rewrite EU. cbn [bind].
  destruct (np_inv m U) as [V|e] eqn:EV; cbn [bind]; [|split; [exact GO|exists U; exact EV]].
  assert (SL : forall k, exists l, @sum_log_diag b64 (FNumD dot) (FNumT fe fl fr) k U = Ok l).
  { induction k as [|k IH]; cbn [sum_log_diag]; [eauto|]. destruct IH as (l & ->). cbn [bind nlog FNumT]. eauto. }
  unfold mle_value. destruct (SL m) as (l & El). rewrite El. cbn [bind].
  match goal with |- context [if ?b then Ok _ else Ok _] => destruct b eqn:Eb end.
  - split; [repeat split; assumption|]. split; [exact GO|]. split; [|reflexivity]. apply fsub_lt. exact Eb.
  - split; [repeat split; assumption|]. left. split; [exact GO|]. split; [exact Eb|]. eexists. reflexivity.
Qed.
Print Assumptions C186_mle64_call.

Lemma mle64_step {C} (conv : @gcut b64 -> C) dot fe fl fr np_inv Sig Y m o x t o' cu t1 : mle_chols m o ->
  mle64_omega dot fe fl fr np_inv conv Sig Y m o x t = Ok (o', (cu, t1)) ->
  mle_chols m o' /\ forall s, t1 = Some s -> Bltb s t = true.
Proof.
  destruct o as [Q Q0]. intros (C1 & C2 & C3 & C4) HC. cbn [fst snd] in *. unfold mle64_omega, mle64_call, mle_call in HC.
  apply bind_ok in HC as ([o2 [cut t2]] & HC & H2). assert (o2 = o') by congruence. assert (t2 = t1) by congruence. subst o2 t2. clear H2.
  apply bind_ok in HC as ([Q1 c1] & E1 & HC). destruct (lmi_keep _ _ _ _ _ _ _ _ E1) as [K1 K2].
  destruct c1 as [c1|]; [injection HC as <- _ <-; split; [repeat split; cbn; congruence|discriminate]|].
  apply bind_ok in HC as ([Q2 c2] & E2 & HC). destruct (lmi0_keep _ _ _ _ _ _ _ E2) as [K3 K4].
  destruct c2 as [c2|]; [injection HC as <- _ <-; split; [repeat split; cbn; congruence|discriminate]|].
  apply bind_ok in HC as (U & _ & HC). apply bind_ok in HC as (V & _ & HC). apply bind_ok in HC as (f1 & _ & HC).
  match type of HC with (if ?b then _ else _) = _ => destruct b eqn:Bw end; injection HC as <- _ <-; (split; [repeat split; cbn; congruence|]); [|discriminate].
  intros s Es. assert (f1 = s) by congruence. subst f1. apply fsub_lt. exact Bw.
Qed.

(** the optimising driver over mle_oracle, with any search space *)
Theorem C186_mle64_returned :
  forall (St X C Sc : Type) (sp : space St X (nat -> b64) C Sc) (conv : @gcut b64 -> C) ltb tneq dot fe fl fr np_inv m Sig Y
         o max_it tol st t tr o' st' xb t' info,
  fdot_any dot -> ext64 dot -> mle_chols m o -> (0 < m)%nat -> (Z.of_nat m <= 2 ^ 20)%Z -> (Z.of_nat (length Sig) <= 2 ^ 20)%Z ->
  sym m (matR Y) -> all_sym m (matsR Sig) ->
  cutting_plane_dc sp ltb tneq (mle64_omega dot fe fl fr np_inv conv Sig Y m) max_it tol o st t = Ok (tr, o', st', (xb, t', info)) ->
  (xb = None -> t' = t) /\
  (xb <> None -> Bltb t' t = true /\ exists ev, In ev tr /\ d_t1 ev = Some t' /\
     forall M, M <= pow2 889 -> lmi_data m Sig Y (d_x ev) M ->
       pd_upto m (lmi_slack m (length Sig) (2 * M)) (mle_upper Sig Y (vecR (d_x ev))) /\
       pd_upto m (lmi_slack m (length Sig) M) (mle_lower Sig (vecR (d_x ev)))).
Proof.
  intros St X C Sc sp conv ltb tneq dot fe fl fr np_inv m Sig Y o max_it tol st t tr o' st' xb t' info Hd NE Ho H0 Hm HF SY SF Hrun.
  set (om := mle64_omega dot fe fl fr np_inv conv Sig Y m) in *.
  destruct (C04_dc_last_improvement _ _ _ _ _ _ _ sp ltb tneq om max_it tol o st t tr o' st' xb t' info Hrun) as (Hrep & Hx & _). clear Hrun.
  split.
  { intros ->. destruct Hx as [(_ & -> & _)|(tr1 & ev & tr2 & _ & _ & _ & Hxb)]; [reflexivity|congruence]. }
  intros Hxb. destruct Hx as [(_ & -> & ->)|(tr1 & ev & tr2 & -> & _ & Hev & _)]; [congruence|].
  assert (Key : exists o t0 o1 cu, mle_chols m o /\ (Bltb t0 t = true \/ t0 = t) /\ om o (d_x ev) t0 = Ok (o1, (cu, Some t'))).
  { generalize dependent t. generalize dependent st. generalize dependent o. clear -Hev.
    induction tr1 as [|e1 tr1 IH]; intros o Hk st t Hrep.
    - cbn in Hrep. inversion Hrep as [|? ? ? c0 t1 o1 st1 s q tr0 ? ? ? Ho]; subst. cbn in Hev. subst t1.
      exists o, t, o1, c0. auto.
    - cbn in Hrep. inversion Hrep as [|? ? ? c0 t1 o1 st1 s q tr0 ? ? ? Ho ? Hr]; subst.
      destruct (mle64_step conv _ _ _ _ _ _ _ _ _ _ _ _ _ _ Hk Ho) as [Hk1 L].
      destruct (IH o1 Hk1 st1 (best t t1) Hr) as (o3 & t0 & o4 & cu & J1 & J2 & J3). exists o3, t0, o4, cu. split; [exact J1|]. split; [|exact J3].
      destruct t1 as [u|]; cbn [best] in J2; [|exact J2]. left. specialize (L u eq_refl). destruct J2 as [J2| ->]; [exact (flt_trans _ _ _ J2 L)|exact L]. }
  destruct Key as (oe & t0 & o1 & cu & Hko & Lt & Hoe).
  split.
  { destruct (mle64_step conv _ _ _ _ _ _ _ _ _ _ _ _ _ _ Hko Hoe) as [_ L]. specialize (L t' eq_refl). destruct Lt as [A| ->]; [exact (flt_trans _ _ _ L A)|exact L]. }
  exists ev. split; [apply in_or_app; right; left; reflexivity|]. split; [exact Hev|]. intros M HM HD.
  assert (HC := C186_mle64_call dot fe fl fr np_inv m Sig Y oe (d_x ev) t0 M Hd NE Hko H0 Hm HF HM SY SF HD). cbv zeta in HC.
  unfold om, mle64_omega in Hoe. destruct (mle64_call dot fe fl fr np_inv Sig Y m oe (d_x ev) t0) as [[o2 [[g f] t1]]|e]; [|discriminate Hoe].
  cbn [bind] in Hoe. assert (t1 = Some t') by congruence. subst t1. apply HC.
Qed.
Print Assumptions C186_mle64_returned.

(** ** C187: the cuts of the two matrix inequalities *)
Theorem C187_mle64_cut :
  forall dot fe fl fr np_inv m Sig Y o x t M MF o' g f h z,
  fdot_any dot -> ext64 dot -> mle_chols m o ->
  (0 < m)%nat -> (Z.of_nat m <= 2 ^ 20)%Z -> (0 < length Sig)%nat -> (Z.of_nat (length Sig) <= 2 ^ 20)%Z -> M <= pow2 889 ->
  sym m (matR Y) -> all_sym m (matsR Sig) -> lmi_data m Sig Y x M -> mats_le m Sig MF ->
  let n := length Sig in
  mle64_call dot fe fl fr np_inv Sig Y m o x t = Ok (o', ((g, f), None)) ->
  ~ (pd_upto m (lmi_slack m n (2 * M)) (mle_upper Sig Y (vecR x)) /\ pd_upto m (lmi_slack m n M) (mle_lower Sig (vecR x))) ->
  is_finite f = true -> (forall k, (k < n)%nat -> is_finite (g k) = true) -> 0 <= h ->
  psd_by m (cut_slack m n (2 * M) (wdist n MF z (vecR x)) + 48 * h * (INR m * (2 * M + pow2 (-1000)))) (mle_upper Sig Y z) ->
  psd_by m (cut_slack m n M (wdist n MF z (vecR x)) + 48 * h * (INR m * (M + pow2 (-1000)))) (mle_lower Sig z) ->
  holds64 n h x g f z.
Proof.
  intros dot fe fl fr np_inv m Sig Y [Q Q0] x t M MF o' g f h z Hd NE (C1 & C2 & C3 & C4) H0 Hm HF0 HF HM SY SF HD HMF n HC NG Ff Fg Hh PU PL. cbn [fst snd] in *.
  assert (HM9 : M <= pow2 999) by (eapply Rle_trans; [exact HM|apply bpow_le; lia]).
  assert (HM1 : M <= pow2 1000) by (eapply Rle_trans; [exact HM|apply bpow_le; lia]).
  assert (HM3 : 2 * M <= pow2 1000) by (apply Rle_trans with (2 * pow2 889); [lra|]; change 2 with (pow2 1) at 1; rewrite <- bpow_plus; apply bpow_le; lia).
  assert (HT := twice_data m Sig Y x M H0 HM9 HD).
  assert (TM := fun i j => twice_mat m Sig Y x M i j HD HM9).
  assert (ST : sym m (matR (twice Y))) by (intros i j Hi Hj; rewrite !TM by assumption; rewrite (SY i j Hi Hj); reflexivity).
  assert (EB : forall w v, bf m (aff_mat (matR (twice Y)) (matsR Sig) w) v v = bf m (mle_upper Sig Y w) v v).
  { intros w v. apply aff_bf. exact TM. }
  destruct (C130_lmi64_decides dot m Sig (twice Y) Q x (2 * M) Hd NE C1 C2 H0 Hm HF HM3 ST SF HT) as (Q' & c & E & K1 & K2 & Hc).
  unfold mle64_call, mle_call in HC. change (fun i j => @nmul b64 (FNumD dot) (@nofZ b64 (FNumD dot) 2) (Y i j)) with (twice Y) in HC. rewrite E in HC. cbn [bind] in HC.
  destruct c as [[g1 f1]|].
  { assert (g1 = g) by congruence. assert (f1 = f) by congruence. subst g1 f1.
    apply (C156_lmi64_cut_valid dot m Sig (twice Y) Q Q' x (2 * M) MF g f h z); try assumption. intros v. rewrite EB. apply PU. }
  destruct (C130_lmi0_64_decides dot m Sig Q0 x M Hd NE C3 C4 H0 Hm HF HM1 SF (lmi_data_zero _ _ _ _ _ HD)) as (Q0' & c & E0 & K3 & K4 & Hc0).
  rewrite E0 in HC. cbn [bind] in HC. destruct c as [[g1 f1]|].
  { assert (g1 = g) by congruence. assert (f1 = f) by congruence. subst g1 f1.
    destruct (C156_lmi0_64_cut dot m Sig Q0 Q0' x M MF g f Hd NE C3 C4 H0 Hm HF0 HF HM1 SF (lmi_data_zero _ _ _ _ _ HD) HMF E0 Ff Fg) as [_ V].
    apply V; assumption. }
  elim NG. split; [intros w Hw; rewrite <- EB; exact (Hc w Hw)|exact Hc0].
Qed.
Print Assumptions C187_mle64_cut.

(** Non-vacuity: Sig = [I], Y = [[2, 1/2], [1/2, 3]].  At x = 1 both matrices are positive definite and the value (the
    logarithms of the example being 0) is the trace 5; x = 16 violates the first, x = -4 the second inequality; a
    singular factor makes np.linalg.inv raise. *)
Definition inv_diag (_ : nat) (U : nat -> nat -> b64) : res (nat -> nat -> b64) := Ok (fun i j => if (i =? j)%nat then fdiv (fmake 1 0) (U i i) else fzero).
Definition mle_ex (inv : nat -> (nat -> nat -> b64) -> res (nat -> nat -> b64)) (q : Z) (t : b64) : option (option spec_float * spec_float) :=
  match mle64_call fdot_seq (fun x => x) (fun _ => fzero) (fun x => x) inv exF64 exB64 2 (@chol_init b64 FNum 2, @chol_init b64 FNum 2) (fun _ => fmake q 0) t with
  | Ok (_, ((g, f), t1)) => Some (option_map (fun v : b64 => B2SF v) t1, B2SF f)
  | Raise _ => None
  end.
Lemma ex186_data q M : (Z.abs q <= 16)%Z -> 3 + IZR (Z.abs q) <= M -> lmi_data 2 exF64 exB64 (fun _ => fmake q 0) M.
Proof.
  intros Hq HM. assert (Eq : B2R (fmake q 0) = IZR q) by (rewrite fmakeR by lia; change (pow2 0) with 1; lra). split.
  - intros k Hk. apply (fmake_exact q 0); [apply fmt_scaled; lia|]. apply Rle_lt_trans with 16.
    + cbn [bpow]. rewrite Rmult_1_r, <- abs_IZR. apply IZR_le. lia.
    + change 16 with (pow2 4). apply bpow_lt. lia.
  - intros i j Hi Hj. assert (Q : 0 <= IZR (Z.abs q)) by (apply IZR_le; lia).
    destruct i as [|[|]]; try lia; destruct j as [|[|]]; try lia; (split; [reflexivity|]; split; [intros Fk [<-|[]]; reflexivity|]);
      unfold matsR, matR, vecR, exB64, exF64; cbn [map length rsum nth mat2]; rewrite Eq, !fmakeR by lia; cbn [bpow];
      rewrite (Rabs_mult _ (IZR q)), <- (abs_IZR q); change (/ IZR (Z.pow_pos radix2 1)) with (/ 2); generalize dependent (IZR (Z.abs q)); intros a Ha Hp; rewrite !Rabs_right; lra.
Qed.
Example C186_ex :
  fdot_any fdot_seq /\ ext64 fdot_seq /\ mle_chols 2 (@chol_init b64 FNum 2, @chol_init b64 FNum 2) /\ sym 2 (matR exB64) /\ all_sym 2 (matsR exF64) /\
  lmi_data 2 exF64 exB64 (fun _ => fmake 1 0) 20 /\ lmi_data 2 exF64 exB64 (fun _ => fmake 16 0) 20 /\ lmi_data 2 exF64 exB64 (fun _ => fmake (-4) 0) 20 /\ 20 <= pow2 889 /\
  mle_ex inv_diag 1 (B754_infinity false) = Some (Some (B2SF (fmake 5 0)), B2SF fzero) /\
  mle_ex inv_diag 1 (fmake 4 0) = Some (None, B2SF (fmake 1 0)) /\
  mle_ex inv_diag 16 (B754_infinity false) = Some (None, B2SF (fmake 12 0)) /\
  mle_ex inv_diag (-4) (B754_infinity false) = Some (None, B2SF (fmake 4 0)) /\
  mle_ex (fun _ _ => Raise ValueError) 1 (B754_infinity false) = None.
Proof.
  split; [exact fnum_dot_any|]. split; [exact fdot_seq_ext|]. split; [repeat split|].
  destruct C130_ex as (_ & _ & S1 & S2 & _). split; [exact S1|]. split; [exact S2|].
  split; [apply ex186_data; [lia|cbn; lra]|]. split; [apply ex186_data; [lia|cbn; lra]|]. split; [apply ex186_data; [lia|cbn; lra]|]. split.
  { apply Rle_trans with 32; [lra|]. change 32 with (pow2 5). apply bpow_le. lia. }
  repeat split; vm_compute; reflexivity.
Qed.
Definition exSig9 : list (nat -> nat -> b64) := [mat2 (fmake 1 0) fzero (fmake 1 0); mat2 fzero fzero (fmake 1 0)].
Definition ex_mle_run : option (bool * list bool * bool) :=
  match @ell_init b64 FNum (VScalar (fmake 64 0)) 2 0%nat with
  | Raise _ => None
  | Ok e =>
      match cutting_plane_dc (@ell_space b64 FNum) (fun x y => Bltb x y) (fun _ _ => true)
              (mle64_omega fdot_seq (fun x => x) (fun _ => fzero) (fun x => x) inv_diag cut1 exSig9 exB64 2) 4 (fmake 1 (-20))
              (@chol_init b64 FNum 2, @chol_init b64 FNum 2) (fun _ => pt (-4) 1, e) (B754_infinity false) with
      | Ok (tr, Q', st', (xb, t', info)) =>
          Some (match xb with Some _ => true | None => false end, map (fun ev => match d_t1 ev with Some _ => true | None => false end) tr, Bltb t' (B754_infinity false))
      | Raise _ => None
      end
  end.
Example C186_ex_run : ex_mle_run = Some (true, [false; true; true; false], true).
Proof. vm_compute. reflexivity. Qed.
(** at x = -4 the cut of the second inequality keeps z = 1 *)
Lemma nf_lt2 : lmi_slack 2 1 20 < 1.
Proof. unfold lmi_slack. cbn [INR]. assert (T1 := tiny (-47) ltac:(lia)). assert (T2 := tiny (-1000) ltac:(lia)). nra. Qed.
Example C187_ex : exists o' g f,
  mle64_call fdot_seq (fun x => x) (fun _ => fzero) (fun x => x) inv_diag exF64 exB64 2 (@chol_init b64 FNum 2, @chol_init b64 FNum 2) (fun _ => fmake (-4) 0) (B754_infinity false) = Ok (o', ((g, f), None)) /\
  ~ (pd_upto 2 (lmi_slack 2 1 (2 * 20)) (mle_upper exF64 exB64 (vecR (fun _ => fmake (-4) 0))) /\ pd_upto 2 (lmi_slack 2 1 20) (mle_lower exF64 (vecR (fun _ => fmake (-4) 0)))) /\
  is_finite f = true /\ (forall k, (k < 1)%nat -> is_finite (g k) = true) /\ mats_le 2 exF64 (fun _ => 1) /\
  psd_by 2 (cut_slack 2 1 (2 * 20) (wdist 1 (fun _ => 1) (fun _ => 1) (vecR (fun _ => fmake (-4) 0))) + 48 * pow2 (-40) * (INR 2 * (2 * 20 + pow2 (-1000)))) (mle_upper exF64 exB64 (fun _ => 1)) /\
  psd_by 2 (cut_slack 2 1 20 (wdist 1 (fun _ => 1) (fun _ => 1) (vecR (fun _ => fmake (-4) 0))) + 48 * pow2 (-40) * (INR 2 * (20 + pow2 (-1000)))) (mle_lower exF64 (fun _ => 1)).
Proof.
  assert (X : match mle64_call fdot_seq (fun x => x) (fun _ => fzero) (fun x => x) inv_diag exF64 exB64 2 (@chol_init b64 FNum 2, @chol_init b64 FNum 2) (fun _ => fmake (-4) 0) (B754_infinity false) with
    | Ok (_, ((g, f), None)) => is_finite f && is_finite (g 0%nat) | _ => false end = true) by (vm_compute; reflexivity).
  destruct (mle64_call fdot_seq (fun x => x) (fun _ => fzero) (fun x => x) inv_diag exF64 exB64 2 (@chol_init b64 FNum 2, @chol_init b64 FNum 2) (fun _ => fmake (-4) 0) (B754_infinity false))
    as [[o' [[g f] [t1|]]]|]; try discriminate X. apply andb_prop in X as [X1 X2].
  assert (E1 : B2R (fmake 1 0) = 1) by (rewrite r_of by lia; change (pow2 0) with 1; lra).
  assert (E2 : B2R (fmake 2 0) = 2) by (rewrite r_of by lia; change (pow2 0) with 1; lra).
  assert (E3 : B2R (fmake 3 0) = 3) by (rewrite r_of by lia; change (pow2 0) with 1; lra).
  assert (E0 : B2R (fmake 0 0) = 0) by reflexivity.
  assert (Eh : B2R (fmake 1 (-1)) = / 2) by (rewrite r_of by lia; change (pow2 (-1)) with (/ 2); lra).
  assert (E4 : B2R (fmake (-4) 0) = -4) by (rewrite r_of by lia; change (pow2 0) with 1; lra).
  exists o', g, f. split; [reflexivity|]. split; [|split; [exact X1|split; [|split; [|split]]]].
  - intros [_ GL]. specialize (GL (fun k => if (k =? 0)%nat then 1 else 0)). assert (A := nf_lt2).
    assert (N : nonzero 2 (fun k => if (k =? 0)%nat then 1 else 0)) by (exists 0%nat; split; [lia|cbn; lra]). specialize (GL N).
    rewrite bf2 in GL. unfold mle_lower, lin_mat, matsR, matR, vecR, exF64, mat2, S_LinAlg.dot in GL. cbn [map length rsum nth Nat.eqb] in GL. rewrite E1, E0, E4 in GL. lra.
  - intros k Hk. assert (k = 0%nat) by lia. subst k. exact X2.
  - intros k i j Hk Hi Hj. assert (k = 0%nat) by (cbn in Hk; lia). subst k. unfold matsR, matR, exF64. cbn [map nth].
    destruct i as [|[|]]; try lia; destruct j as [|[|]]; try lia; cbn [mat2]; rewrite ?E1, ?E0; apply Rabs_le; lra.
  - intros y. rewrite bf2. unfold cut_slack, wdist, mle_upper, aff_mat, lin_mat, matsR, matR, vecR, exB64, exF64, mat2, S_LinAlg.dot. cbn [map length rsum nth INR]. rewrite E1, E0, E2, E3, Eh, E4.
    rewrite (Rabs_right (1 - -4)) by lra. assert (T1 := tiny (-46) ltac:(lia)). assert (T2 := tiny (-1000) ltac:(lia)). assert (T3 := tiny (-50) ltac:(lia)). assert (T4 := tiny (-40) ltac:(lia)).
    match goal with |- ?d * _ <= _ => assert (D : d <= / 2) by nra; set (dd := d) in * end. generalize (y 0%nat) (y 1%nat). intros a b. clearbody dd.
    assert (A0 := Rle_0_sqr a). assert (B0 := Rle_0_sqr b). assert (C0 := Rle_0_sqr (a + b)). unfold Rsqr in *.
    assert (A1 := Rmult_le_compat_r _ _ _ A0 D). assert (B1 := Rmult_le_compat_r _ _ _ B0 D). lra.
  - intros y. rewrite bf2. unfold cut_slack, wdist, mle_lower, lin_mat, matsR, matR, vecR, exB64, exF64, mat2, S_LinAlg.dot. cbn [map length rsum nth INR]. rewrite E1, E0, E4.
    rewrite (Rabs_right (1 - -4)) by lra. assert (T1 := tiny (-46) ltac:(lia)). assert (T2 := tiny (-1000) ltac:(lia)). assert (T3 := tiny (-50) ltac:(lia)). assert (T4 := tiny (-40) ltac:(lia)).
    match goal with |- ?d * _ <= _ => assert (D : d <= / 2) by nra; set (dd := d) in * end. generalize (y 0%nat) (y 1%nat). intros a b. clearbody dd.
    assert (A0 := Rle_0_sqr a). assert (B0 := Rle_0_sqr b). assert (C0 := Rle_0_sqr (a + b)). unfold Rsqr in *.
    assert (A1 := Rmult_le_compat_r _ _ _ A0 D). assert (B1 := Rmult_le_compat_r _ _ _ B0 D). lra.
Qed.
