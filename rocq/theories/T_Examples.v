(** The optimisation problems of the repository's tests, end to end (C95 - C99). *)
From Coq Require Import Reals Lra Psatz FunctionalExtensionality.
From Verif Require Import Base M_Drivers S_Drivers P_Drivers S_LinAlg P_LinAlg M_Ell S_Ell P_EllCalc P_Ell P_Ell3 P_Ell4
  S_Det S_Volume P_Volume P_Conv M_Chol M_Lmi S_Lmi P_Chol P_Lmi P_Lmi2 M_Misc M_Lowpass S_Lowpass P_Lowpass
  M_Net S_Net P_Net M_Profit S_Profit P_Profit M_Examples S_Examples T_Drivers T_Ell T_Chol T_Lmi T_Net T_Lowpass T_Profit T_Misc T_Volume T_Rates.
Local Open Scope R_scope.

(** What holds for every run of cutting_plane_dc over ell whose oracle's cuts keep the better points and whose
    reports satisfy [rep] and never get worse. *)
Lemma dc_bundle {Or T : Type} (omega : Or -> (nat -> R) -> T -> res (Or * (cut R * option T))) tneq (OI : Or -> Prop)
      (better : T -> (nat -> R) -> Prop) (rep : T -> (nat -> R) -> Prop) (le : T -> T -> Prop)
      max_it tol o w e t tr o' w' e' xb t' info :
  (forall a, le a a) -> (forall a b c, le a b -> le b c -> le a c) ->
  optimizes omega OI (sat_cut (e_n e)) better ->
  (forall o x t o' c t1, OI o -> omega o x t = Ok (o', (c, Some t1)) -> rep t1 x /\ le t1 t) ->
  ell_wf e -> OI o ->
  cutting_plane_dc ell_space Rltb tneq omega max_it tol o (w, e) t = Ok (tr, o', (w', e'), (xb, t', info)) ->
  (cstatus info = nosoln -> forall z, mem_ell (w, e) z -> ~ better t' z) /\
  (cstatus info <> nosoln -> forall z, mem_ell (w, e) z -> better t' z -> mem_ell (w', e') z) /\
  le t' t /\ (xb = None -> t' = t) /\ (xb <> None -> exists x, rep t' x).
Proof.
  intros Hrefl Htrans Hopt Hrep He Ho H.
  destruct (C06_dc_ell_never_loses_better _ _ tneq omega OI _ max_it tol _ w e t tr o' w' e' xb t' info Hopt He Ho H) as [H1 H2].
  split; [exact H1|]. split; [exact H2|].
  destruct (C04_dc_last_improvement _ _ _ _ _ _ _ _ _ _ _ _ _ _ _ _ _ _ _ _ _ _ H) as (Hr & Hb & _).
  assert (HI : forall o x t o' c t1, OI o -> omega o x t = Ok (o', (c, t1)) -> OI o').
  { intros o0 x t0 o1 c t1 Ho1 Hx. apply (Hopt o0 x t0 o1 c t1 Ho1 Hx). }
  split.
  { refine (dc_replay_mono_inv ell_space omega OI (fun a b => le a b) Hrefl Htrans HI _ o (w, e) t tr o' (w', e') t' Ho Hr).
    intros o0 x t0 o1 c t1 Ho1 Hx. apply (Hrep _ _ _ _ _ _ Ho1 Hx). }
  destruct Hb as [(_ & -> & ->)|(tr1 & ev & tr2 & -> & _ & Hev & Hxb)].
  - split; [reflexivity|congruence].
  - split; [congruence|]. intros _.
    destruct (dc_replay_in ell_space omega OI HI _ _ _ _ _ _ _ Ho Hr ev) as (o1 & o2 & Ho1 & Hx);
      [apply in_or_app; right; left; reflexivity|].
    rewrite Hev in Hx. exists (d_x ev). apply (Hrep _ _ _ _ _ _ Ho1 Hx).
Qed.

(** ** C95: minimising a linear function under two matrix inequalities (tests/test_lmi.py) *)
Definition lmi_opt_omega lmi c F1 F2 B1 B2 (o : chol R * chol R) (x : nat -> R) (t : option R)
  : res ((chol R * chol R) * (cut R * option (option R))) :=
  ' (o', ((g, fj), t1)) <- lmi_opt_call lmi c F1 F2 B1 B2 (length F1) o x t ;; Ok (o', ((g, BScalar fj), t1)).
Lemma lmi_either lmi m F B Q x : lmi = lmi_call \/ lmi = lmi_old_call -> all_sym m F -> sym m B -> oracle_chol m Q ->
  exists Q' c, lmi F B (length F) Q x = Ok (Q', c) /\ oracle_chol m Q' /\ (c = None <-> pd m (aff_mat B F x)) /\
    forall g ep, c = Some (g, ep) -> 0 <= ep /\ forall z, psd m (aff_mat B F z) -> dot (length F) g (fun i => z i - x i) + ep <= 0.
Proof. intros [-> | ->] HF HB HQ; [apply lmi_call_spec|apply lmi_old_call_spec]; assumption. Qed.
Lemma dot_diff n c x z : dot n c (fun i => z i - x i) = dot n c z - dot n c x.
Proof. unfold dot. rewrite <- rsum_minus. apply rsum_ext. intros. ring. Qed.
Lemma lmi_opt_spec lmi c F1 F2 B1 B2 m1 m2 Q1 Q2 x t :
  lmi = lmi_call \/ lmi = lmi_old_call -> all_sym m1 F1 -> all_sym m2 F2 -> sym m1 B1 -> sym m2 B2 ->
  length F1 = length F2 -> oracle_chol m1 Q1 -> oracle_chol m2 Q2 ->
  exists Q1' Q2' g f t1, lmi_opt_omega lmi c F1 F2 B1 B2 (Q1, Q2) x t = Ok ((Q1', Q2'), ((g, BScalar f), t1)) /\
    oracle_chol m1 Q1' /\ oracle_chol m2 Q2' /\ 0 <= f /\
    (forall z, psd m1 (aff_mat B1 F1 z) -> psd m2 (aff_mat B2 F2 z) -> upto (dot (length F1) c z) (best t t1) ->
       dot (length F1) g (fun i => z i - x i) + f <= 0) /\
    (forall s, t1 = Some s <-> s = Some (dot (length F1) c x) /\ pd m1 (aff_mat B1 F1 x) /\ pd m2 (aff_mat B2 F2 x) /\
       upto (dot (length F1) c x) t).
Proof.
  intros Hl HF1 HF2 HB1 HB2 Hlen HQ1 HQ2. unfold lmi_opt_omega, lmi_opt_call.
  destruct (lmi_either lmi m1 F1 B1 Q1 x Hl HF1 HB1 HQ1) as (Q1' & c1 & E1 & HQ1' & Hd1 & Hc1). rewrite E1. cbn [bind].
  destruct c1 as [[g1 ep1]|].
  { destruct (Hc1 g1 ep1 eq_refl) as [P1 V1]. cbn [bind]. exists Q1', Q2, g1, ep1, None. repeat (split; [assumption || reflexivity|]).
    split; [intros z Z1 _ _; apply V1; exact Z1|].
    intros s. split; [discriminate|]. intros (_ & Hp & _). apply Hd1 in Hp. discriminate. }
  rewrite Hlen. destruct (lmi_either lmi m2 F2 B2 Q2 x Hl HF2 HB2 HQ2) as (Q2' & c2 & E2 & HQ2' & Hd2 & Hc2). rewrite E2. cbn [bind].
  destruct c2 as [[g2 ep2]|].
  { destruct (Hc2 g2 ep2 eq_refl) as [P2 V2]. cbn [bind]. exists Q1', Q2', g2, ep2, None. repeat (split; [assumption || reflexivity|]).
    split; [intros z _ Z2 _; apply V2; exact Z2|].
    intros s. split; [discriminate|]. intros (_ & _ & Hp & _). apply Hd2 in Hp. discriminate. }
  assert (P1 : pd m1 (aff_mat B1 F1 x)) by (apply Hd1; reflexivity).
  assert (P2 : pd m2 (aff_mat B2 F2 x)) by (apply Hd2; reflexivity).
  change (ndot (length F2) c x) with (dot (length F2) c x). set (f0 := dot (length F2) c x).
  assert (Hrep : upto f0 t -> exists Q1'0 Q2'0 g f t1,
    (' (o', ((g, fj), t1)) <- Ok (Q1', Q2', (c, 0, Some (Some f0))) ;; Ok (o', ((g, BScalar fj), t1)) : res (chol R * chol R * (cut R * option (option R))))
      = Ok (Q1'0, Q2'0, (g, BScalar f, t1)) /\ oracle_chol m1 Q1'0 /\ oracle_chol m2 Q2'0 /\ 0 <= f /\
    (forall z, psd m1 (aff_mat B1 F1 z) -> psd m2 (aff_mat B2 F2 z) -> upto (dot (length F2) c z) (best t t1) ->
       dot (length F2) g (fun i => z i - x i) + f <= 0) /\
    (forall s, t1 = Some s <-> s = Some f0 /\ pd m1 (aff_mat B1 F1 x) /\ pd m2 (aff_mat B2 F2 x) /\ upto f0 t)).
  { intros Hb. cbn [bind]. exists Q1', Q2', c, 0, (Some (Some f0)). repeat (split; [assumption || reflexivity || lra|]).
    split; [|intros s; split; [intros [= <-]; auto|intros (-> & _); reflexivity]].
    intros z _ _. cbn. rewrite dot_diff. fold f0. lra. }
  destruct t as [t|]; [|apply Hrep; exact I].
  change (@nltb R RNum) with Rltb. change (@nzero R RNum) with 0. change (@nsub R RNum) with Rminus.
  destruct (Rltb 0 (f0 - t)) eqn:B; [apply Rltb_true in B|apply Rltb_false in B; apply Hrep; cbn; lra].
  cbn [bind]. exists Q1', Q2', c, (f0 - t), None. repeat (split; [assumption || reflexivity || lra|]). split.
  - intros z _ _. cbn. rewrite dot_diff. fold f0. lra.
  - intros s. split; [discriminate|]. intros (_ & _ & _ & Hb). cbn in Hb. lra.
Qed.
Definition lmi_opt_OI m1 m2 (o : chol R * chol R) := oracle_chol m1 (fst o) /\ oracle_chol m2 (snd o).
Lemma lmi_opt_optimizes lmi c F1 F2 B1 B2 m1 m2 :
  lmi = lmi_call \/ lmi = lmi_old_call -> all_sym m1 F1 -> all_sym m2 F2 -> sym m1 B1 -> sym m2 B2 -> length F1 = length F2 ->
  optimizes (lmi_opt_omega lmi c F1 F2 B1 B2) (lmi_opt_OI m1 m2) (sat_cut (length F1))
    (fun t z => psd m1 (aff_mat B1 F1 z) /\ psd m2 (aff_mat B2 F2 z) /\ upto (dot (length F1) c z) t).
Proof.
  intros Hl HF1 HF2 HB1 HB2 Hlen [Q1 Q2] x t o1 cu t1 [HQ1 HQ2] Hx. cbn [fst snd] in *.
  destruct (lmi_opt_spec lmi c F1 F2 B1 B2 m1 m2 Q1 Q2 x t Hl HF1 HF2 HB1 HB2 Hlen HQ1 HQ2)
    as (Q1' & Q2' & g & f & s & E & HQ1' & HQ2' & Hf & Hz & Hs). rewrite Hx in E. injection E as -> -> ->.
  split; [split; assumption|]. split.
  - intros z (Z1 & Z2 & Z3). unfold sat_cut; cbn [fst snd beta0]. apply Hz; assumption.
  - intros z (Z1 & Z2 & Z3). split; [assumption|]. split; [assumption|]. destruct s as [s|]; [|exact Z3].
    destruct (proj1 (Hs s) eq_refl) as (-> & _ & _ & Hb). cbn in Z3. destruct t as [t|]; [cbn in *; lra|exact I].
Qed.
Theorem C95_lmi_opt_end_to_end :
  forall lmi c F1 F2 B1 B2 m1 m2 tneq max_it tol Q1 Q2 w e t tr o' w' e' xb t' info,
  lmi = lmi_call \/ lmi = lmi_old_call -> all_sym m1 F1 -> all_sym m2 F2 -> sym m1 B1 -> sym m2 B2 -> length F1 = length F2 ->
  oracle_chol m1 Q1 -> oracle_chol m2 Q2 -> ell_wf e -> e_n e = length F1 ->
  cutting_plane_dc ell_space Rltb tneq (lmi_opt_omega lmi c F1 F2 B1 B2) max_it tol (Q1, Q2) (w, e) t
    = Ok (tr, o', (w', e'), (xb, t', info)) ->
  let n := length F1 in
  let good s z := psd m1 (aff_mat B1 F1 z) /\ psd m2 (aff_mat B2 F2 z) /\ upto (dot n c z) s in
  (cstatus info = nosoln -> forall z, mem_ell (w, e) z -> ~ good t' z) /\
  (cstatus info <> nosoln -> forall z, mem_ell (w, e) z -> good t' z -> mem_ell (w', e') z) /\
  ole t' t /\ (xb = None -> t' = t) /\
  (xb <> None -> exists x, t' = Some (dot n c x) /\ pd m1 (aff_mat B1 F1 x) /\ pd m2 (aff_mat B2 F2 x)).
Proof.
  intros lmi c F1 F2 B1 B2 m1 m2 tneq max_it tol Q1 Q2 w e t tr o' w' e' xb t' info Hl HF1 HF2 HB1 HB2 Hlen HQ1 HQ2 He En H n good.
  pose proof (lmi_opt_optimizes lmi c F1 F2 B1 B2 m1 m2 Hl HF1 HF2 HB1 HB2 Hlen) as Hopt. rewrite <- En in Hopt.
  apply (dc_bundle (lmi_opt_omega lmi c F1 F2 B1 B2) tneq (lmi_opt_OI m1 m2) good
    (fun s x => s = Some (dot n c x) /\ pd m1 (aff_mat B1 F1 x) /\ pd m2 (aff_mat B2 F2 x)) ole
    max_it tol (Q1, Q2) w e t tr o' w' e' xb t' info); try assumption.
  - intros [a|]; cbn; [lra|exact I].
  - intros [a|] [b|] [d|]; cbn; try lra; try tauto.
  - unfold good, n. rewrite <- En. exact Hopt.
  - intros [P1 P2] x t0 o1 cu t1 [HP1 HP2] Hx.
    destruct (lmi_opt_spec lmi c F1 F2 B1 B2 m1 m2 P1 P2 x t0 Hl HF1 HF2 HB1 HB2 Hlen HP1 HP2)
      as (Q1' & Q2' & g & f & s & E & _ & _ & _ & _ & Hs). rewrite Hx in E. injection E as -> -> <-.
    destruct (proj1 (Hs t1) eq_refl) as (-> & Hp1 & Hp2 & Hb). split; [split; [reflexivity|split; assumption]|].
    destruct t0; exact Hb.
  - split; assumption.
Qed.
Print Assumptions C95_lmi_opt_end_to_end.
Theorem C95_lmi_opt_rate :
  forall lmi c F1 F2 B1 B2 m1 m2 tneq xs cc r Fb th max_it tol Q1 Q2 w e t tr o' st' xb t' info,
  lmi = lmi_call \/ lmi = lmi_old_call -> all_sym m1 F1 -> all_sym m2 F2 -> sym m1 B1 -> sym m2 B2 -> length F1 = length F2 ->
  oracle_chol m1 Q1 -> oracle_chol m2 Q2 -> ell_wf e -> e_n e = length F1 ->
  0 < r -> 0 < th <= 1 -> tol <= 0 ->
  let n := length F1 in
  let feas z := psd m1 (aff_mat B1 F1 z) /\ psd m2 (aff_mat B2 F2 z) in
  feas xs -> mem_ell (w, e) xs ->
  (forall y, ball n cc r y -> mem_ell (w, e) y /\ feas y /\ dot n c y <= Fb) ->
  cutting_plane_dc ell_space Rltb tneq (lmi_opt_omega lmi c F1 F2 B1 B2) max_it tol (Q1, Q2) (w, e) t
    = Ok (tr, o', st', (xb, t', info)) ->
  cut_bound n (shape_det e) (th * r) < INR max_it ->
  exists v, t' = Some v /\ v <= (1 - th) * dot n c xs + th * Fb.
Proof.
  intros lmi c F1 F2 B1 B2 m1 m2 tneq xs cc r Fb th max_it tol Q1 Q2 w e t tr o' st' xb t' info
    Hl HF1 HF2 HB1 HB2 Hlen HQ1 HQ2 He En Hr Hth Htol n feas Hxs Hms Hball H Hbd.
  pose proof (lmi_opt_optimizes lmi c F1 F2 B1 B2 m1 m2 Hl HF1 HF2 HB1 HB2 Hlen) as Hopt.
  fold n in Hopt, En. rewrite <- En in Hopt, Hball, Hbd.
  set (good := fun s z => psd m1 (aff_mat B1 F1 z) /\ psd m2 (aff_mat B2 F2 z) /\ upto (dot (e_n e) c z) s) in *.
  assert (Hmix : forall y z, ball (e_n e) cc r y -> (forall i, z i = (1 - th) * xs i + th * y i) ->
    feas z /\ dot (e_n e) c z <= (1 - th) * dot n c xs + th * Fb).
  { intros y z Hy Ez. destruct (Hball y Hy) as (_ & [Y1 Y2] & Y3). destruct Hxs as [X1 X2].
    assert (Hm : forall m B F, psd m (aff_mat B F xs) -> psd m (aff_mat B F y) -> psd m (aff_mat B F z)).
    { intros m B F A1 A2 v. rewrite (bf_comb m (aff_mat B F xs) (aff_mat B F y) (aff_mat B F z) v v th).
      - specialize (A1 v). specialize (A2 v). nra.
      - intros i j. unfold aff_mat. rewrite (lin_mat_comb F xs y z th _ _ Ez). ring. }
    split; [split; apply Hm; assumption|]. rewrite (dot_comb _ c xs y z th Ez), En. fold n in Y3. rewrite En in Y3. nra. }
  assert (Hno : ~ forall y z, ball (e_n e) cc r y -> (forall i, z i = (1 - th) * xs i + th * y i) -> good t' z).
  { eapply (dc_shrunk_ball (lmi_opt_omega lmi c F1 F2 B1 B2) tneq (lmi_opt_OI m1 m2) good xs cc r th); try eassumption.
    - split; assumption.
    - intros [P1 P2] x t0 o1 cu t1 [HP1 HP2] Hx.
      destruct (lmi_opt_spec lmi c F1 F2 B1 B2 m1 m2 P1 P2 x t0 Hl HF1 HF2 HB1 HB2 Hlen HP1 HP2)
        as (Q1' & Q2' & g & f & s & E & _ & _ & Hf & _ & _). rewrite Hx in E. injection E as -> -> ->. exact Hf.
    - intros y Hy. apply Hball, Hy. }
  destruct t' as [v|].
  - exists v. split; [reflexivity|]. destruct (Rle_lt_dec v ((1 - th) * dot n c xs + th * Fb)) as [L|L]; [exact L|exfalso].
    apply Hno. intros y z Hy Ez. destruct (Hmix y z Hy Ez) as [[Z1 Z2] Z3]. split; [exact Z1|]. split; [exact Z2|]. cbn. lra.
  - exfalso. apply Hno. intros y z Hy Ez. destruct (Hmix y z Hy Ez) as [[Z1 Z2] Z3]. split; [exact Z1|]. split; [exact Z2|]. exact I.
Qed.
Print Assumptions C95_lmi_opt_rate.
(** x0 <= 5 and x1 <= 4 as matrix inequalities, minimising -x0 - x1 from the unit disc and t = inf *)
Definition loF1 := [mat22 1 0 1; mat22 0 0 0].
Definition loF2 := [mat22 0 0 0; mat22 1 0 1].
Lemma lo_form1 x v : bf 2 (aff_mat (mat22 5 0 5) loF1 x) v v = (5 - x 0%nat) * (v 0%nat * v 0%nat + v 1%nat * v 1%nat).
Proof. unfold bf, dot, mvr, dot, aff_mat, lin_mat, loF1, mat22; cbn. ring. Qed.
Lemma lo_form2 x v : bf 2 (aff_mat (mat22 4 0 4) loF2 x) v v = (4 - x 1%nat) * (v 0%nat * v 0%nat + v 1%nat * v 1%nat).
Proof. unfold bf, dot, mvr, dot, aff_mat, lin_mat, loF2, mat22; cbn. ring. Qed.
Example C95_ex : exists tr o' st' info,
  cutting_plane_dc ell_space Rltb (fun _ _ => true) (lmi_opt_omega lmi_call (vec2 0 (-1) (-1)) loF1 loF2 (mat22 5 0 5) (mat22 4 0 4)) 1 0
    (chol_init 2, chol_init 2) (fun _ => vec2 0 0 0, ball2) None = Ok (tr, o', st', (Some 0%nat, Some 0, info)) /\
  exists v, Some 0 = Some v /\ v <= (1 - 19 / 20) * -1 + 19 / 20 * (3 / 2).
Proof.
  assert (HF1 : all_sym 2 loF1) by (intros M [<-|[<-|[]]]; apply mat22_sym).
  assert (HF2 : all_sym 2 loF2) by (intros M [<-|[<-|[]]]; apply mat22_sym).
  assert (Hsq : forall v : nat -> R, 0 <= v 0%nat * v 0%nat + v 1%nat * v 1%nat).
  { intros v. assert (0 <= v 0%nat * v 0%nat) by apply Rle_0_sqr. assert (0 <= v 1%nat * v 1%nat) by apply Rle_0_sqr. lra. }
  assert (Hnz : forall v : nat -> R, nonzero 2 v -> 0 < v 0%nat * v 0%nat + v 1%nat * v 1%nat).
  { intros v (k & Hk & Hv). assert (0 <= v 0%nat * v 0%nat) by apply Rle_0_sqr. assert (0 <= v 1%nat * v 1%nat) by apply Rle_0_sqr.
    assert (0 < v k * v k) by nra. destruct k as [|[|k]]; [| |lia]; lra. }
  set (c := vec2 0 (-1) (-1)).
  destruct (lmi_opt_spec lmi_call c loF1 loF2 (mat22 5 0 5) (mat22 4 0 4) 2 2 (chol_init 2) (chol_init 2) (vec2 0 0 0) None
    (or_introl eq_refl) HF1 HF2 (mat22_sym _ _ _) (mat22_sym _ _ _) eq_refl (conj eq_refl eq_refl) (conj eq_refl eq_refl))
    as (Q1 & Q2 & g & f & t1 & E & _ & _ & Hf & Hcut & Hs).
  assert (D : dot (length loF1) c (vec2 0 0 0) = 0) by (unfold dot, c; cbn; ring).
  assert (t1 = Some (Some 0)) as ->.
  { apply Hs. rewrite D. split; [reflexivity|]. split; [|split; [|exact I]]; intros v Hv; [rewrite lo_form1|rewrite lo_form2];
      apply Rmult_lt_0_compat; try (apply Hnz, Hv); cbn; lra. }
  assert (Hg : nonzero (e_n ball2) g).
  { destruct (Req_EM_T (g 0%nat) 0) as [G0|G0]; [|exists 0%nat; split; [cbn; lia|exact G0]].
    destruct (Req_EM_T (g 1%nat) 0) as [G1|G1]; [|exists 1%nat; split; [cbn; lia|exact G1]]. exfalso.
    unfold lmi_opt_omega in E. apply bind_ok in E as ([o2 [[g2 f2] t2]] & E & E'). injection E' as -> -> -> ->.
    unfold lmi_opt_call in E. apply bind_ok in E as ([P1 [c1|]] & _ & E); [discriminate|].
    apply bind_ok in E as ([P2 [c2|]] & _ & E); [discriminate|]. injection E as _ _ <- _ _. unfold c in G0. cbn in G0. lra. }
  destruct (dc_one_step (lmi_opt_omega lmi_call c loF1 loF2 (mat22 5 0 5) (mat22 4 0 4)) (fun _ _ => true) 0
    (chol_init 2, chol_init 2) (fun _ => vec2 0 0 0) ball2 None (Q1, Q2) g (BScalar f) (Some (Some 0)) ball2_proper Hg E Hf)
    as (tr & o' & st' & info & H).
  exists tr, o', st', info. split; [exact H|].
  replace (-1) with (dot (length loF1) c (vec2 0 (1 / 2) (1 / 2))) by (unfold dot, c; cbn; field).
  apply (C95_lmi_opt_rate lmi_call c loF1 loF2 (mat22 5 0 5) (mat22 4 0 4) 2 2 (fun _ _ => true) (vec2 0 (1 / 2) (1 / 2)) (vec2 0 0 0) 1
    (3 / 2) (19 / 20) 1 0 (chol_init 2) (chol_init 2) (fun _ => vec2 0 0 0) ball2 None tr o' st' (Some 0%nat) (Some 0) info);
    try lra; try exact H; try assumption; try apply mat22_sym; try (split; reflexivity); try reflexivity.
  - left. reflexivity.
  - apply ball2_proper.
  - split; intros v; [rewrite lo_form1|rewrite lo_form2]; apply Rmult_le_pos; try apply Hsq; cbn; lra.
  - apply disc_mem. unfold ball, dot. cbn. lra.
  - intros y Hy. split; [apply disc_mem; exact Hy|]. destruct (disc_coords y Hy) as [Y0 Y1]. split.
    + split; intros v; [rewrite lo_form1|rewrite lo_form2]; apply Rmult_le_pos; try apply Hsq; lra.
    + unfold ball, dot in Hy. cbn in Hy. unfold dot, c. cbn. set (a := y 0%nat) in *. set (b := y 1%nat) in *.
      assert (0 <= (a - b) * (a - b)) by apply Rle_0_sqr. assert ((a + b) * (a + b) <= 2) by lra.
      assert (Hs2 : forall u, u * u <= 2 -> - u <= 3 / 2) by (intros u Hu; nra). pose proof (Hs2 (a + b) ltac:(lra)). lra.
  - rewrite unit_det. exact small_bound.
Qed.

(** ** C96: minimax FIR filter design (tests/test_firfilter.py) *)
Definition fir_dev (P : fir R) (i : nat) : (nat -> R) -> R :=
  deviation (fir_n P) (fir_AR P i) (fir_AI P i) (fir_Hr P i) (fir_Hi P i).
Definition fir_omega (P : fir R) (o : unit) (h : nat -> R) (t : R) : res (unit * (cut R * option R)) :=
  ' ((g, fj), t1) <- fir_call P h t ;; Ok (tt, ((g, BScalar fj), t1)).
Lemma fir_sub P i x z : fir_dev P i x + dot (fir_n P) (fir_g P i x) (fun k => z k - x k) <= fir_dev P i z.
Proof.
  assert (E : dot (fir_n P) (fir_g P i x) (fun k => z k - x k)
    = 2 * (fir_tr P i x * (dot (fir_n P) (fir_AR P i) z - dot (fir_n P) (fir_AR P i) x)
         + fir_ti P i x * (dot (fir_n P) (fir_AI P i) z - dot (fir_n P) (fir_AI P i) x))).
  { rewrite <- !dot_diff. unfold dot. rewrite <- !rsum_scal_l, <- rsum_plus, <- rsum_scal_l. apply rsum_ext. intros k Hk.
    unfold fir_g, two; cbn. ring. }
  rewrite E. unfold fir_dev, deviation, fir_tr, fir_ti. change (@nsub R RNum) with Rminus.
  change (@ndot R RNum) with dot. set (a := dot _ (fir_AR P i) x). set (b := dot _ (fir_AI P i) x).
  set (a' := dot _ (fir_AR P i) z). set (b' := dot _ (fir_AI P i) z).
  assert (0 <= (a' - a) * (a' - a)) by apply Rle_0_sqr. assert (0 <= (b' - b) * (b' - b)) by apply Rle_0_sqr. nra.
Qed.
Lemma fir_loop_spec P h t ks : forall dn bst,
  (forall i, In i dn -> fir_dev P i h < t) ->
  match bst with
  | None => dn = []
  | Some (f, g) => (forall i, In i dn -> fir_dev P i h <= f) /\ exists i, In i dn /\ f = fir_dev P i h /\ g = fir_g P i h
  end ->
  match fir_loop P ks h t bst with
  | Raise e => e = UnboundLocalError /\ ks = [] /\ dn = []
  | Ok ((g, f), None) => exists i, In i ks /\ g = fir_g P i h /\ f = fir_dev P i h - t /\ t <= fir_dev P i h
  | Ok ((g, f), Some v) => f = 0 /\ (forall i, In i dn \/ In i ks -> fir_dev P i h <= v) /\ v < t /\
      exists i, (In i dn \/ In i ks) /\ v = fir_dev P i h /\ g = fir_g P i h
  end.
Proof.
  induction ks as [|k ks IH]; intros dn bst Hdn Hb.
  - cbn. destruct bst as [[f g]|]; [|auto]. destruct Hb as (H1 & i & Hi & -> & ->).
    split; [reflexivity|]. split; [intros j [Hj|[]]; auto|]. split; [auto|]. exists i. auto.
  - cbn [fir_loop]. change (nadd (nmul (fir_tr P k h) (fir_tr P k h)) (nmul (fir_ti P k h) (fir_ti P k h))) with (fir_dev P k h).
    change (@nleb R RNum) with Rleb. change (@nltb R RNum) with Rltb. change (@neqb R RNum) with Req_bool.
    destruct (Rleb t (fir_dev P k h)) eqn:L.
    { apply Rleb_true in L. exists k. split; [left; reflexivity|]. repeat split; assumption || reflexivity. }
    apply Rleb_false in L.
    set (b' := if match bst with Some (f, _) => Rltb f (fir_dev P k h) | None => Req_bool (fir_dev P k h) (fir_dev P k h) end
               then Some (fir_dev P k h, fir_g P k h) else bst).
    specialize (IH (k :: dn) b').
    assert (G : match fir_loop P ks h t b' with
      | Raise e => e = UnboundLocalError /\ ks = [] /\ k :: dn = []
      | Ok ((g, f), None) => exists i, In i ks /\ g = fir_g P i h /\ f = fir_dev P i h - t /\ t <= fir_dev P i h
      | Ok ((g, f), Some v) => f = 0 /\ (forall i, In i (k :: dn) \/ In i ks -> fir_dev P i h <= v) /\ v < t /\
          exists i, (In i (k :: dn) \/ In i ks) /\ v = fir_dev P i h /\ g = fir_g P i h
      end).
    { apply IH.
      - intros i [<-|Hi]; auto.
      - unfold b'. destruct bst as [[f g]|].
        + destruct Hb as (H1 & i & Hi & -> & ->). destruct (Rltb (fir_dev P i h) (fir_dev P k h)) eqn:B;
            [apply Rltb_true in B|apply Rltb_false in B]; (split; [intros j [<-|Hj]; [lra|specialize (H1 j Hj); lra]|]).
          * exists k. split; [left; reflexivity|]. split; reflexivity.
          * exists i. split; [right; assumption|]. split; reflexivity.
        + subst dn. rewrite (proj2 (Reqb_true _ _) eq_refl). split; [intros j [<-|[]]; lra|]. exists k. split; [left; reflexivity|].
          split; reflexivity. }
    destruct (fir_loop P ks h t b') as [[[g f] [v|]]|e].
    + destruct G as (-> & G1 & G2 & i & Hi & -> & ->). split; [reflexivity|]. split; [intros j Hj; apply G1; cbn in *; tauto|].
      split; [assumption|]. exists i. split; [cbn in *; tauto|]. split; reflexivity.
    + destruct G as (i & Hi & G). exists i. split; [right; assumption|exact G].
    + destruct G as (_ & _ & G). discriminate.
Qed.
(** What a call does: nothing to compare with is an UnboundLocalError; else the first deviation reaching t gives a
    deep cut, and if there is none the largest deviation, below t, is reported. *)
Lemma fir_spec P h t :
  match fir_call P h t with
  | Raise e => e = UnboundLocalError /\ fir_m P = 0%nat
  | Ok ((g, f), None) => 0 <= f /\ (exists i, (i < fir_m P)%nat /\ t <= fir_dev P i h) /\
      forall z, (forall i, (i < fir_m P)%nat -> fir_dev P i z <= t) -> dot (fir_n P) g (fun k => z k - h k) + f <= 0
  | Ok ((g, f), Some v) => f = 0 /\ v < t /\ largest (fir_m P) (fun i => fir_dev P i h) v /\
      forall z, (forall i, (i < fir_m P)%nat -> fir_dev P i z <= v) -> dot (fir_n P) g (fun k => z k - h k) <= 0
  end.
Proof.
  unfold fir_call. pose proof (fir_loop_spec P h t (seq 0 (fir_m P)) [] None ltac:(intros i []) eq_refl) as G.
  destruct (fir_loop P (seq 0 (fir_m P)) h t None) as [[[g f] [v|]]|e].
  - destruct G as (-> & G1 & G2 & i & [[]|Hi] & Ev & ->). apply in_seq in Hi. split; [reflexivity|]. split; [assumption|]. split.
    + split; [|exists i; split; [lia|assumption]]. intros j Hj. apply G1. right. apply in_seq. lia.
    + intros z Hz. pose proof (fir_sub P i h z). specialize (Hz i ltac:(lia)). lra.
  - destruct G as (i & Hi & -> & -> & L). apply in_seq in Hi. split; [lra|]. split; [exists i; split; [lia|assumption]|].
    intros z Hz. pose proof (fir_sub P i h z). specialize (Hz i ltac:(lia)). lra.
  - destruct G as (-> & G & _). split; [reflexivity|]. destruct (fir_m P); [reflexivity|discriminate].
Qed.
Lemma fir_omega_inv P o x t o' cu t1 : fir_omega P o x t = Ok (o', (cu, t1)) ->
  exists g f, fir_call P x t = Ok ((g, f), t1) /\ cu = (g, BScalar f).
Proof. intros H. apply bind_ok in H as ([[g f] s] & H & E). injection E as _ <- ->. eauto. Qed.
Lemma fir_optimizes P : optimizes (fir_omega P) (fun _ => True) (sat_cut (fir_n P))
  (fun t z => forall i, (i < fir_m P)%nat -> fir_dev P i z <= t).
Proof.
  intros o x t o1 cu t1 _ Hx. split; [exact I|]. apply fir_omega_inv in Hx as (g & f & Hx & ->).
  pose proof (fir_spec P x t) as G. rewrite Hx in G. unfold sat_cut; cbn [fst snd beta0]. destruct t1 as [v|].
  - destruct G as (-> & Hv & _ & G). split; [intros z Z; specialize (G z Z); cbn; lra|].
    intros z Z i Hi. specialize (Z i Hi). cbn in Z. lra.
  - destruct G as (_ & _ & G). split; [exact G|auto].
Qed.
Theorem C96_fir_oracle :
  forall P h t,
  match fir_call P h t with
  | Raise e => e = UnboundLocalError /\ fir_m P = 0%nat
  | Ok ((g, f), t1) =>
      0 <= f /\
      (t1 = None <-> exists i, (i < fir_m P)%nat /\ t <= fir_dev P i h) /\
      (forall v, t1 = Some v -> f = 0 /\ v < t /\ largest (fir_m P) (fun i => fir_dev P i h) v) /\
      forall z, (forall i, (i < fir_m P)%nat -> fir_dev P i z <= best t t1) -> dot (fir_n P) g (fun k => z k - h k) + f <= 0
  end.
Proof.
  intros P h t. pose proof (fir_spec P h t) as G. destruct (fir_call P h t) as [[[g f] [v|]]|e]; [| |exact G].
  - destruct G as (-> & Hv & Hl & G). split; [lra|]. split.
    { split; [discriminate|]. intros (i & Hi & L). destruct Hl as [Hl _]. specialize (Hl i Hi). cbn in Hl. lra. }
    split; [intros v' [= <-]; auto|]. intros z Z. specialize (G z Z). lra.
  - destruct G as (Hf & He & G). split; [assumption|]. split; [split; auto|]. split; [discriminate|exact G].
Qed.
Print Assumptions C96_fir_oracle.
Theorem C96_fir_end_to_end :
  forall P tneq max_it tol p w e t tr o' w' e' p' v,
  (forall a b, tneq a b = true <-> a <> b) -> ell_wf e -> e_n e = fir_n P ->
  problem_solve ell_space Rltb tneq (fir_omega P) max_it tol p tt (w, e) t = Ok (tr, o', (w', e'), p', v) ->
  (pb_status p' = Some p_infeasible -> pb_value p' = pb_value p /\ pb_var p' = pb_var p) /\
  (pb_status p' <> Some p_infeasible -> exists s h, v = Some s /\ s < t /\ largest (fir_m P) (fun i => fir_dev P i h) s) /\
  exists s, (pb_status p' = Some p_infeasible -> s = t) /\ (pb_status p' <> Some p_infeasible -> v = Some s) /\
    ((forall z, mem_ell (w, e) z -> ~ forall i, (i < fir_m P)%nat -> fir_dev P i z <= s) \/
     (forall z, mem_ell (w, e) z -> (forall i, (i < fir_m P)%nat -> fir_dev P i z <= s) -> mem_ell (w', e') z)).
Proof.
  intros P tneq max_it tol p w e t tr o' w' e' p' v Hneq He En H.
  assert (Hkeep : pb_status p' = Some p_infeasible -> pb_value p' = pb_value p /\ pb_var p' = pb_var p).
  { unfold problem_solve in H. apply bind_ok in H as ([[[tr1 o1] st1] [[xb fb] info]] & _ & H). cbv zeta in H.
    injection H as _ _ _ <- _. destruct (feasible info); cbn; [destruct (status_eqb _ _); discriminate|auto]. }
  split; [exact Hkeep|].
  apply C57_problem_solve in H as (xb & s & info & Hdc & Hv & _ & Ho & Hf & Hi & Hval).
  destruct (dc_bundle (fir_omega P) tneq (fun _ => True) (fun t z => forall i, (i < fir_m P)%nat -> fir_dev P i z <= t)
    (fun s h => largest (fir_m P) (fun i => fir_dev P i h) s) Rle
    max_it tol tt w e t tr o' w' e' xb s info) as (D1 & D2 & D3 & D4 & D5); try assumption; try exact I.
  - intros a. lra.
  - intros a b c. lra.
  - rewrite En. apply fir_optimizes.
  - intros o x t0 o1 cu t1 _ Hx. apply fir_omega_inv in Hx as (g & f & Hx & ->).
    pose proof (fir_spec P x t0) as G. rewrite Hx in G. destruct G as (_ & Hs & Hl & _). split; [exact Hl|lra].
  - assert (Hst : pb_status p' <> Some p_infeasible -> s <> t /\ v = Some s).
    { intros Hn. destruct (tneq s t) eqn:B; [|tauto]. split; [apply Hneq, B|]. rewrite Hv. apply Hval. reflexivity. }
    split.
    + intros Hn. destruct (Hst Hn) as [Hne ->]. destruct D5 as [h Hh]; [intros ->; auto|].
      exists s, h. split; [reflexivity|]. split; [lra|exact Hh].
    + exists s. split; [|split; [intros Hn; apply Hst, Hn|]].
      * intros Hn. apply Hi in Hn. destruct (Req_EM_T s t) as [|Hne]; [assumption|]. apply Hneq in Hne. congruence.
      * destruct (status_eqb (cstatus info) nosoln) eqn:B.
        -- left. apply D1. destruct (cstatus info); discriminate || reflexivity.
        -- right. apply D2. intros E. rewrite E in B. discriminate.
Qed.
Print Assumptions C96_fir_end_to_end.
Lemma sq_comb th a b : 0 < th <= 1 -> ((1 - th) * a + th * b) * ((1 - th) * a + th * b) <= (1 - th) * (a * a) + th * (b * b).
Proof.
  intros Hth. assert (0 <= (a - b) * (a - b)) by apply Rle_0_sqr. assert (0 <= th * (1 - th)) by nra.
  assert (0 <= th * (1 - th) * ((a - b) * (a - b))) by (apply Rmult_le_pos; assumption). lra.
Qed.
Theorem C96_fir_rate :
  forall P tneq hs vs cc r F th max_it tol p w e t tr o' st' p' v,
  (forall a b, tneq a b = true <-> a <> b) -> ell_wf e -> e_n e = fir_n P -> 0 < r -> 0 < th <= 1 -> tol <= 0 ->
  (forall i, (i < fir_m P)%nat -> fir_dev P i hs <= vs) -> mem_ell (w, e) hs ->
  (forall y, ball (fir_n P) cc r y -> mem_ell (w, e) y /\ forall i, (i < fir_m P)%nat -> fir_dev P i y <= F) ->
  problem_solve ell_space Rltb tneq (fir_omega P) max_it tol p tt (w, e) t = Ok (tr, o', st', p', v) ->
  cut_bound (fir_n P) (shape_det e) (th * r) < INR max_it ->
  (1 - th) * vs + th * F < t ->
  pb_status p' <> Some p_infeasible /\ exists s, v = Some s /\ s <= (1 - th) * vs + th * F.
Proof.
  intros P tneq hs vs cc r F th max_it tol p w e t tr o' st' p' v Hneq He En Hr Hth Htol Hhs Hms Hball H Hbd Ht.
  apply C57_problem_solve in H as (xb & s & info & Hdc & Hv & _ & Ho & Hf & Hi & Hval).
  rewrite <- En in Hball, Hbd.
  assert (L : s <= (1 - th) * vs + th * F).
  { apply (dc_epi_rate (fir_omega P) tneq (fun _ => True) (fun t z => forall i, (i < fir_m P)%nat -> fir_dev P i z <= t)
      hs vs cc r F th max_it tol tt w e t tr o' st' xb s info); try assumption; try exact I.
    - intros a b z Hab Z i Hi'. specialize (Z i Hi'). lra.
    - intros x y z a b Ez X Y i Hi'. specialize (X i Hi'). specialize (Y i Hi'). unfold fir_dev, deviation in *.
      rewrite !(dot_comb _ _ x y z th Ez).
      set (p1 := dot _ (fir_AR P i) x) in *. set (p2 := dot _ (fir_AR P i) y) in *.
      set (q1 := dot _ (fir_AI P i) x) in *. set (q2 := dot _ (fir_AI P i) y) in *.
      pose proof (sq_comb th (p1 - fir_Hr P i) (p2 - fir_Hr P i) Hth) as S1.
      pose proof (sq_comb th (q1 - fir_Hi P i) (q2 - fir_Hi P i) Hth) as S2.
      replace ((1 - th) * p1 + th * p2 - fir_Hr P i) with ((1 - th) * (p1 - fir_Hr P i) + th * (p2 - fir_Hr P i)) by ring.
      replace ((1 - th) * q1 + th * q2 - fir_Hi P i) with ((1 - th) * (q1 - fir_Hi P i) + th * (q2 - fir_Hi P i)) by ring.
      assert ((1 - th) * ((p1 - fir_Hr P i) * (p1 - fir_Hr P i) + (q1 - fir_Hi P i) * (q1 - fir_Hi P i)) <= (1 - th) * a)
        by (apply Rmult_le_compat_l; lra).
      assert (th * ((p2 - fir_Hr P i) * (p2 - fir_Hr P i) + (q2 - fir_Hi P i) * (q2 - fir_Hi P i)) <= th * b)
        by (apply Rmult_le_compat_l; lra). lra.
    - rewrite En. apply fir_optimizes.
    - intros o x t0 o1 cu t1 _ Hx. apply fir_omega_inv in Hx as (g & f & Hx & ->).
      pose proof (fir_spec P x t0) as G. rewrite Hx in G. unfold deep. cbn. destruct t1 as [u|]; [destruct G as (-> & _); lra|apply G]. }
  assert (B : tneq s t = true) by (apply Hneq; lra).
  destruct (Hval B) as [Hs _]. split; [|exists s; split; [congruence|exact L]].
  intros Hn. apply Hi in Hn. congruence.
Qed.
Print Assumptions C96_fir_rate.
(** two frequencies, two coefficients: |h0 + i h1 - 1|^2 and h1^2 *)
Definition fir_ex : fir R := mkFir 2 2
  (fun i k => if Nat.eqb i k then 1 else 0) (fun i k => if Nat.eqb i 0 && Nat.eqb k 1 then 1 else 0)
  (fun i => if Nat.eqb i 0 then 1 else 0) (fun _ => 0).
Lemma fir_ex_dev0 h : fir_dev fir_ex 0 h = (h 0%nat - 1) * (h 0%nat - 1) + h 1%nat * h 1%nat.
Proof. unfold fir_dev, deviation, dot; cbn. ring. Qed.
Lemma fir_ex_dev1 h : fir_dev fir_ex 1 h = h 1%nat * h 1%nat.
Proof. unfold fir_dev, deviation, dot; cbn. ring. Qed.
Definition rneq (a b : R) : bool := negb (Req_bool a b).
Lemma rneq_true a b : rneq a b = true <-> a <> b.
Proof. unfold rneq. rewrite negb_true_iff. split; intros H; [intros E; apply Reqb_true in E; congruence|].
  destruct (Req_bool a b) eqn:B; [apply Reqb_true in B; contradiction|reflexivity]. Qed.
Example C96_ex : exists tr o' st' p' s,
  problem_solve ell_space Rltb rneq (fir_omega fir_ex) 1 0 problem_init tt (fun _ => vec2 0 0 0, ball2) 9 = Ok (tr, o', st', p', Some s) /\
  pb_status p' <> Some p_infeasible /\ s < 9 /\ s <= (1 - 19 / 20) * 0 + 19 / 20 * 4.
Proof.
  assert (D0 : fir_dev fir_ex 0 (vec2 0 0 0) = 1) by (rewrite fir_ex_dev0; cbn; ring).
  assert (D1 : fir_dev fir_ex 1 (vec2 0 0 0) = 0) by (rewrite fir_ex_dev1; cbn; ring).
  assert (E : fir_omega fir_ex tt (vec2 0 0 0) 9 = Ok (tt, ((fir_g fir_ex 0 (vec2 0 0 0), BScalar 0), Some 1))).
  { unfold fir_omega, fir_call. cbn [fir_m fir_ex seq fir_loop].
    change (nadd (nmul (fir_tr fir_ex 0 (vec2 0 0 0)) (fir_tr fir_ex 0 (vec2 0 0 0)))
      (nmul (fir_ti fir_ex 0 (vec2 0 0 0)) (fir_ti fir_ex 0 (vec2 0 0 0)))) with (fir_dev fir_ex 0 (vec2 0 0 0)).
    change (nadd (nmul (fir_tr fir_ex 1 (vec2 0 0 0)) (fir_tr fir_ex 1 (vec2 0 0 0)))
      (nmul (fir_ti fir_ex 1 (vec2 0 0 0)) (fir_ti fir_ex 1 (vec2 0 0 0)))) with (fir_dev fir_ex 1 (vec2 0 0 0)).
    rewrite D0, D1. change (@nleb R RNum) with Rleb. change (@nltb R RNum) with Rltb. change (@neqb R RNum) with Req_bool.
    rewrite (proj2 (Rleb_false 9 1)), (proj2 (Rleb_false 9 0)), (proj2 (Reqb_true 1 1)), (proj2 (Rltb_false 1 0)) by lra.
    reflexivity. }
  assert (Hg : nonzero (e_n ball2) (fir_g fir_ex 0 (vec2 0 0 0))).
  { exists 0%nat. split; [cbn; lia|]. unfold fir_g, fir_tr, fir_ti, ndot, two; cbn. lra. }
  destruct (dc_one_step (fir_omega fir_ex) rneq 0 tt (fun _ => vec2 0 0 0) ball2 9 tt (fir_g fir_ex 0 (vec2 0 0 0)) (BScalar 0) (Some 1)
    ball2_proper Hg E ltac:(cbn; lra)) as (tr & o' & st' & info & H).
  assert (H' : exists p' v, problem_solve ell_space Rltb rneq (fir_omega fir_ex) 1 0 problem_init tt (fun _ => vec2 0 0 0, ball2) 9
    = Ok (tr, o', st', p', v)).
  { unfold problem_solve. rewrite H. cbn [bind]. eauto. }
  destruct H' as (p' & v & H').
  destruct (C96_fir_rate fir_ex rneq (vec2 0 1 0) 0 (vec2 0 0 0) 1 4 (19 / 20) 1 0 problem_init (fun _ => vec2 0 0 0) ball2 9 tr o' st' p' v)
    as (Hst & s & -> & L); try lra; try assumption; try reflexivity; try apply rneq_true.
  - apply ball2_proper.
  - intros [|[|i]] Hi; [rewrite fir_ex_dev0; cbn; lra|rewrite fir_ex_dev1; cbn; lra|cbn in Hi; lia].
  - apply disc_mem. unfold ball, dot. cbn. lra.
  - intros y Hy. split; [apply disc_mem; exact Hy|]. destruct (disc_coords y Hy) as [Y0 Y1]. unfold ball, dot in Hy. cbn in Hy.
    assert (0 <= y 0%nat * y 0%nat) by apply Rle_0_sqr.
    intros [|[|i]] Hi; [rewrite fir_ex_dev0; lra|rewrite fir_ex_dev1; lra|cbn in Hi; lia].
  - rewrite unit_det. exact small_bound.
  - exists tr, o', st', p', s. split; [exact H'|]. split; [exact Hst|]. split; [lra|exact L].
Qed.

(** ** C97: the quasiconvex problem of tests/test_quasicvx.py *)
Lemma exp_tangent u v : exp u + exp u * (v - u) <= exp v.
Proof.
  replace (exp v) with (exp u * exp (v - u)) by (rewrite <- exp_plus; f_equal; ring).
  pose proof (exp_ge_1p (v - u)). pose proof (exp_pos u). nra.
Qed.
Lemma q_peak_pos : 0 < q_peak.
Proof. apply Rinv_0_lt_compat, sqrt_lt_R0. pose proof (exp_pos 1). lra. Qed.
(** s <= e^(s^2) / sqrt(2e), with equality at s^2 = 1/2 *)
Lemma q_peak_bound s : s <= q_peak * exp (s * s).
Proof.
  destruct (Rle_lt_dec s 0) as [L|L]; [pose proof q_peak_pos; pose proof (exp_pos (s * s)); nra|].
  assert (H0 : 0 < 2 * exp 1) by (pose proof (exp_pos 1); lra).
  pose proof (sqrt_lt_R0 _ H0) as Hr. unfold q_peak. set (r := sqrt (2 * exp 1)) in *.
  assert (Er : r * r = 2 * exp 1) by (apply sqrt_sqrt; lra).
  apply Rmult_le_reg_l with r; [exact Hr|]. rewrite <- Rmult_assoc, Rinv_r, Rmult_1_l by lra.
  pose proof (exp_pos (s * s)) as He.
  apply Rsqr_incr_0_var; [|lra]. unfold Rsqr.
  replace (r * s * (r * s)) with (r * r * (s * s)) by ring. rewrite Er, <- exp_plus.
  replace (s * s + s * s) with (1 + (2 * (s * s) - 1)) by ring. rewrite exp_plus.
  pose proof (exp_ge_1p (2 * (s * s) - 1)). pose proof (exp_pos 1). nra.
Qed.
Lemma q1_val_bound z : q1_feas z -> q1_val z <= q_peak.
Proof.
  unfold q1_feas, q1_val. intros H. pose proof (exp_pos (z 1%nat)) as He. apply Rmult_le_reg_r with (exp (z 1%nat)); [exact He|].
  unfold Rdiv. rewrite Rmult_assoc, Rinv_l, Rmult_1_r by lra.
  eapply Rle_trans; [apply q_peak_bound|]. apply Rmult_le_compat_l; [left; apply q_peak_pos|].
  destruct H as [H| ->]; [left; apply exp_increasing, H|lra].
Qed.
Lemma q1_val_max : q1_feas (vec2 0 (sqrt (1 / 2)) (1 / 2)) /\ q1_val (vec2 0 (sqrt (1 / 2)) (1 / 2)) = q_peak.
Proof.
  unfold q1_feas, q1_val, vec2. cbn. split; [rewrite sqrt_sqrt; lra|].
  assert (E2 : exp (1 / 2) * exp (1 / 2) = exp 1) by (rewrite <- exp_plus; f_equal; field).
  pose proof (exp_pos (1 / 2)) as He. pose proof (exp_pos 1).
  assert (Hq : sqrt (1 / 2) * sqrt (2 * exp 1) = exp (1 / 2)).
  { rewrite <- sqrt_mult by lra. replace (1 / 2 * (2 * exp 1)) with (exp (1 / 2) * exp (1 / 2)) by (rewrite E2; field).
    apply sqrt_square. lra. }
  assert (0 < sqrt (2 * exp 1)) by (apply sqrt_lt_R0; lra). unfold q_peak. rewrite <- Hq. field. split; [lra|].
  apply Rgt_not_eq, sqrt_lt_R0. lra.
Qed.
Definition quasi1_omega (o : unit) (z : nat -> R) (t : R) : res (unit * (cut R * option R)) :=
  ' ((g, fj), t1) <- quasi1_call z t ;; Ok (tt, ((g, BScalar fj), t1)).
Theorem C97_quasi1_oracle :
  forall x t, exists g f t1, quasi1_call x t = Ok ((g, f), t1) /\ 0 <= f /\ nonzero 2 g /\
    (forall v, t1 = Some v <-> v = q1_val x /\ q1_feas x /\ t < v) /\
    (t1 <> None -> f = 0) /\
    (0 <= t -> forall z, q1_feas z -> best t t1 <= q1_val z -> dot 2 g (fun k => z k - x k) + f <= 0).
Proof.
  intros x t. unfold quasi1_call. cbn [nexp RNumT]. change (@nltb R RNum) with Rltb. change (@nzero R RNum) with 0.
  change (@nsub R RNum) with Rminus. change (@nmul R RNum) with Rmult. change (@nadd R RNum) with Rplus. change (@nopp R RNum) with Ropp.
  set (s := x 0%nat). set (l := x 1%nat).
  assert (Hval : forall z u, u <= q1_val z -> u * exp (z 1%nat) <= z 0%nat).
  { intros z u Hu. unfold q1_val in Hu. pose proof (exp_pos (z 1%nat)).
    apply (Rmult_le_compat_r (exp (z 1%nat))) in Hu; [|lra]. unfold Rdiv in Hu. rewrite Rmult_assoc, Rinv_l, Rmult_1_r in Hu by lra. exact Hu. }
  pose proof (exp_pos l) as He.
  destruct (Rltb 0 (s * s - l)) eqn:B; [apply Rltb_true in B|apply Rltb_false in B].
  { exists (arr2 (two * s) (- none)), (s * s - l), None. split; [reflexivity|]. split; [lra|]. split.
    { exists 1%nat. split; [lia|]. cbn. lra. }
    split; [intros v; split; [discriminate|]; intros (_ & Hf & _); unfold q1_feas in Hf; fold s l in Hf; lra|]. split; [congruence|].
    intros _ z Hz _. unfold q1_feas in Hz. unfold dot, arr2, two; cbn. fold s l.
    assert (0 <= (z 0%nat - s) * (z 0%nat - s)) by apply Rle_0_sqr. lra. }
  destruct (Rltb (- s + t * exp l) 0) eqn:B2; [apply Rltb_true in B2|apply Rltb_false in B2].
  - rewrite rdiv_ok by lra. cbn [bind]. exists (arr2 (- none) s), 0, (Some (s / exp l)). split; [reflexivity|]. split; [lra|].
    assert (Ht : t < s / exp l) by (apply Rmult_lt_reg_r with (exp l); [lra|]; unfold Rdiv; rewrite Rmult_assoc, Rinv_l, Rmult_1_r by lra; lra).
    split; [exists 0%nat; split; [lia|]; cbn; lra|].
    split; [intros v; split; [intros [= <-]; split; [reflexivity|]; split; [unfold q1_feas; fold s l; lra|exact Ht]|intros (-> & _); reflexivity]|].
    split; [reflexivity|]. intros Ht0 z _ Hv. cbn [best] in Hv. apply Hval in Hv.
    assert (Es : s / exp l * exp l = s) by (unfold Rdiv; rewrite Rmult_assoc, Rinv_l, Rmult_1_r by lra; reflexivity).
    pose proof (exp_tangent l (z 1%nat)) as Htan. set (u := s / exp l) in *.
    assert (u * (exp l + exp l * (z 1%nat - l)) <= u * exp (z 1%nat)) by (apply Rmult_le_compat_l; lra).
    unfold dot, arr2; cbn. fold s l. replace s with (u * exp l) at 2 by exact Es. lra.
  - exists (arr2 (- none) (t * exp l)), (- s + t * exp l), None. split; [reflexivity|]. split; [lra|].
    split; [exists 0%nat; split; [lia|]; cbn; lra|].
    split; [intros v; split; [discriminate|]; intros (-> & _ & Hv); apply Rlt_le in Hv as Hv'; apply Hval in Hv'; fold l s in Hv';
      unfold q1_val in Hv; fold s l in Hv; exfalso; apply (Rmult_lt_compat_r (exp l)) in Hv; [|lra];
      unfold Rdiv in Hv; rewrite Rmult_assoc, Rinv_l, Rmult_1_r in Hv by lra; lra|].
    split; [congruence|]. intros Ht0 z _ Hv. cbn [best] in Hv. apply Hval in Hv.
    pose proof (exp_tangent l (z 1%nat)) as Htan.
    assert (t * (exp l + exp l * (z 1%nat - l)) <= t * exp (z 1%nat)) by (apply Rmult_le_compat_l; lra).
    unfold dot, arr2; cbn. fold s l. lra.
Qed.
Print Assumptions C97_quasi1_oracle.
Definition q1_good (s : R) (z : nat -> R) : Prop := q1_feas z /\ s <= q1_val z.
Lemma quasi1_inv o x t o' c t1 : quasi1_omega o x t = Ok (o', (c, t1)) ->
  exists g f, quasi1_call x t = Ok ((g, f), t1) /\ c = (g, BScalar f).
Proof. intros H. apply bind_ok in H as ([[g f] s] & H & E). injection E as _ <- ->. eauto. Qed.
Lemma quasi1_cut o x t o' c t1 : True -> 0 <= t -> quasi1_omega o x t = Ok (o', (c, t1)) ->
  True /\ forall z, q1_good (best t t1) z -> sat_cut 2 x c z.
Proof.
  intros _ Ht E. split; [exact I|]. apply quasi1_inv in E as (g & f & E & ->).
  destruct (C97_quasi1_oracle x t) as (g' & f' & t' & E' & _ & _ & _ & _ & Hv). rewrite E in E'. injection E' as <- <- <-.
  intros z [Z1 Z2]. exact (Hv Ht z Z1 Z2).
Qed.
Lemma quasi1_rep o x t o' c t1 : True -> 0 <= t -> quasi1_omega o x t = Ok (o', (c, Some t1)) -> t < t1 /\ q1_good t1 x.
Proof.
  intros _ _ E. apply quasi1_inv in E as (g & f & E & ->).
  destruct (C97_quasi1_oracle x t) as (g' & f' & t' & E' & _ & _ & Hr & _). rewrite E in E'. injection E' as <- <- <-.
  destruct (proj1 (Hr t1) eq_refl) as (-> & R1 & R2). split; [exact R2|]. split; [exact R1|lra].
Qed.
Lemma q1_anti t t' z : t <= t' -> q1_good t' z -> q1_good t z.
Proof. intros L [Z1 Z2]. split; [exact Z1|lra]. Qed.
Theorem C97_quasi1_end_to_end :
  forall tneq max_it tol w e t tr o' w' e' xb t' info,
  (forall a b, tneq a b = true <-> a <> b) -> 0 <= t -> ell_wf e -> e_n e = 2%nat ->
  cutting_plane_dc ell_space Rltb tneq quasi1_omega max_it tol tt (w, e) t = Ok (tr, o', (w', e'), (xb, t', info)) ->
  (cstatus info = nosoln -> forall z, mem_ell (w, e) z -> q1_feas z -> q1_val z < t') /\
  (cstatus info <> nosoln -> forall z, mem_ell (w, e) z -> q1_feas z -> t' <= q1_val z -> mem_ell (w', e') z) /\
  (feasible info = true <-> t < t') /\ (feasible info = false <-> t' = t) /\
  (t < t' -> xb <> None /\ t' <= q_peak /\ exists x, q1_feas x /\ t' = q1_val x) /\
  (q_peak <= t -> feasible info = false /\ t' = t /\ xb = None).
Proof.
  intros tneq max_it tol w e t tr o' w' e' xb t' info Hneq Ht He En H.
  destruct (profit_run quasi1_omega (fun _ => True) q1_good quasi1_cut quasi1_rep q1_anti tneq max_it tol tt w e t tr o' w' e' xb t' info
    Ht I He En H) as (H1 & H2 & H3 & H4 & H5).
  destruct (C04_dc_last_improvement _ _ _ _ _ _ _ _ _ _ _ _ _ _ _ _ _ _ _ _ _ _ H) as (Hr & _ & Hf & _).
  assert (Ff : feasible info = true <-> t < t').
  { rewrite Hf. rewrite Hneq. split; [intros Hn; destruct H3 as [|E]; [assumption|congruence]|lra]. }
  assert (Ff2 : feasible info = false <-> t' = t).
  { destruct (feasible info); [split; [discriminate|]; intros E; pose proof (proj1 Ff eq_refl); lra|].
    split; [|reflexivity]. intros _. destruct H3 as [L|L]; [|auto]. apply Ff in L. discriminate. }
  assert (Hpk : t < t' -> xb <> None /\ t' <= q_peak /\ exists x, q1_feas x /\ t' = q1_val x).
  { intros L. assert (Hx : xb <> None) by (intros E; specialize (H4 E); lra). split; [exact Hx|].
    destruct (H5 Hx) as (_ & ev & Hin & Hev & G1 & G2). split; [pose proof (q1_val_bound _ G1); lra|]. exists (d_x ev). split; [exact G1|].
    destruct (dc_replay_in ell_space quasi1_omega (fun _ => True) (fun _ _ _ _ _ _ _ _ => I) _ _ _ _ _ _ _ I Hr ev Hin) as (o1 & o2 & _ & E).
    rewrite Hev in E. apply quasi1_inv in E as (g & f & E & _).
    destruct (C97_quasi1_oracle (d_x ev) (d_t ev)) as (g2 & f2 & t2 & E2 & _ & _ & Hs & _). rewrite E in E2. injection E2 as _ _ <-.
    apply (proj1 (Hs t') eq_refl). }
  split; [intros Hs z Hz Z1; destruct (Rlt_le_dec (q1_val z) t') as [|L]; [assumption|destruct (H1 Hs z Hz (conj Z1 L))]|].
  split; [intros Hs z Hz Z1 Z2; apply (H2 Hs z Hz); split; assumption|].
  split; [exact Ff|]. split; [exact Ff2|]. split; [exact Hpk|].
  intros Hq. assert (E : t' = t) by (destruct H3 as [L|]; [destruct (Hpk L) as (_ & ? & _); lra|auto]).
  split; [apply Ff2, E|]. split; [exact E|]. destruct xb as [xb|]; [|reflexivity]. destruct H5 as (L & _); [discriminate|lra].
Qed.
Print Assumptions C97_quasi1_end_to_end.
Lemma q1_mix th A B x y z : 0 < th <= 1 -> 0 < A -> 0 < B -> (forall i, z i = (1 - th) * x i + th * y i) ->
  q1_good A x -> q1_good B y -> q1_good (Rpower A (1 - th) * Rpower B th) z.
Proof.
  intros Hth HA HB Ez [X1 X2] [Y1 Y2]. unfold q1_good, q1_feas, q1_val in *. rewrite !Ez. split.
  - pose proof (sq_comb th (x 0%nat) (y 0%nat) Hth). nra.
  - set (l := (1 - th) * x 1%nat + th * y 1%nat).
    assert (Hm : forall C z, 0 < C -> C <= z 0%nat / exp (z 1%nat) -> exp (ln C + z 1%nat) <= z 0%nat).
    { intros C u HC HCz. rewrite exp_plus, exp_ln by assumption. pose proof (exp_pos (u 1%nat)).
      apply (Rmult_le_compat_r (exp (u 1%nat))) in HCz; [|lra]. unfold Rdiv in HCz. rewrite Rmult_assoc, Rinv_l, Rmult_1_r in HCz by lra. lra. }
    apply (Hm A x HA) in X2. apply (Hm B y HB) in Y2.
    pose proof (exp_convex th (ln A + x 1%nat) (ln B + y 1%nat) ltac:(lra)) as Hc.
    unfold Rpower. rewrite <- exp_plus. pose proof (exp_pos l) as Hl. apply Rmult_le_reg_r with (exp l); [exact Hl|].
    unfold Rdiv. rewrite Rmult_assoc, Rinv_l, Rmult_1_r by lra. rewrite <- exp_plus.
    replace ((1 - th) * ln A + th * ln B + l) with ((1 - th) * (ln A + x 1%nat) + th * (ln B + y 1%nat)) by (unfold l; ring).
    eapply Rle_trans; [exact Hc|]. apply Rplus_le_compat; apply Rmult_le_compat_l; lra.
Qed.
Theorem C97_quasi1_rate :
  forall tneq xs vs c r F th max_it tol w e t tr o' st' xb t' info,
  0 <= t -> ell_wf e -> e_n e = 2%nat -> 0 < r -> 0 < th <= 1 -> tol <= 0 -> 0 < vs -> 0 < F ->
  q1_feas xs -> vs <= q1_val xs -> mem_ell (w, e) xs ->
  (forall y, ball 2 c r y -> mem_ell (w, e) y /\ q1_feas y /\ F <= q1_val y) ->
  cutting_plane_dc ell_space Rltb tneq quasi1_omega max_it tol tt (w, e) t = Ok (tr, o', st', (xb, t', info)) ->
  cut_bound 2 (shape_det e) (th * r) < INR max_it ->
  Rpower vs (1 - th) * Rpower F th <= t'.
Proof.
  intros tneq xs vs c r F th max_it tol w e t tr o' st' xb t' info Ht He En Hr Hth Htol Hvs HF Hx1 Hx2 Hms Hball H Hbd.
  rewrite <- (guard_run quasi1_omega (fun _ => True) q1_good quasi1_cut quasi1_rep) in H by (assumption || exact I).
  pose proof (guard_optimizes quasi1_omega (fun _ => True) q1_good quasi1_cut quasi1_rep q1_anti) as Hopt.
  destruct (Rle_lt_dec (Rpower vs (1 - th) * Rpower F th) t') as [L|L]; [exact L|exfalso].
  rewrite <- En in Hball, Hbd, Hopt.
  eapply (dc_shrunk_ball (om' quasi1_omega) tneq (fun _ => True) q1_good xs c r th); try eassumption; try exact I.
  - intros o x t0 o1 cu t1 _ E. destruct (guard_inv _ _ _ quasi1_cut _ _ _ _ _ _ I E) as (Ht0 & E1 & _).
    apply quasi1_inv in E1 as (g & f & E1 & ->).
    destruct (C97_quasi1_oracle x t0) as (g2 & f2 & t2 & E2 & Hf & _). rewrite E1 in E2. injection E2 as _ <- _. exact Hf.
  - intros y Hy. apply Hball, Hy.
  - intros y z Hy Ez. destruct (Hball y Hy) as (_ & Y1 & Y2). eapply q1_anti; [left; exact L|].
    apply (q1_mix th vs F xs y z); try assumption; split; assumption.
Qed.
Print Assumptions C97_quasi1_rate.
Lemma disc_coords_at c0 c1 y : ball 2 (vec2 0 c0 c1) 1 y -> c0 - 1 <= y 0%nat <= c0 + 1 /\ c1 - 1 <= y 1%nat <= c1 + 1.
Proof.
  unfold ball, dot. cbn. intros Hy. assert (Hs1 : forall u, u * u <= 1 -> -1 <= u <= 1) by (intros u Hu; split; nra).
  assert (0 <= (y 0%nat - c0) * (y 0%nat - c0)) by apply Rle_0_sqr. assert (0 <= (y 1%nat - c1) * (y 1%nat - c1)) by apply Rle_0_sqr.
  pose proof (Hs1 (y 0%nat - c0) ltac:(lra)). pose proof (Hs1 (y 1%nat - c1) ltac:(lra)). lra.
Qed.
Lemma exp_le u v : u <= v -> exp u <= exp v.
Proof. intros [L| ->]; [left; apply exp_increasing, L|lra]. Qed.
Example C97_ex : exists tr o' st' t' info,
  cutting_plane_dc ell_space Rltb rneq quasi1_omega 1 0 tt (fun _ => vec2 0 2 10, ball2) 0 = Ok (tr, o', st', (Some 0%nat, t', info)) /\
  t' = 2 / exp 10 /\ Rpower (2 / exp 10) (1 - 19 / 20) * Rpower (1 / exp 11) (19 / 20) <= t'.
Proof.
  pose proof (exp_pos 10) as P10. pose proof (exp_pos 11) as P11.
  assert (Hv : q1_val (vec2 0 2 10) = 2 / exp 10) by reflexivity.
  assert (Hp : 0 < 2 / exp 10) by (apply Rdiv_lt_0_compat; lra).
  assert (Hf : q1_feas (vec2 0 2 10)) by (unfold q1_feas; cbn; lra).
  destruct (C97_quasi1_oracle (vec2 0 2 10) 0) as (g & f & t1 & E & Hf0 & Hg & Hs & _).
  assert (t1 = Some (2 / exp 10)) as -> by (apply Hs; rewrite Hv; auto).
  assert (E' : quasi1_omega tt (vec2 0 2 10) 0 = Ok (tt, ((g, BScalar f), Some (2 / exp 10)))) by (unfold quasi1_omega; rewrite E; reflexivity).
  destruct (dc_one_step quasi1_omega rneq 0 tt (fun _ => vec2 0 2 10) ball2 0 tt g (BScalar f) (Some (2 / exp 10)) ball2_proper Hg E' Hf0)
    as (tr & o' & st' & info & H).
  exists tr, o', st', (2 / exp 10), info. split; [exact H|]. split; [reflexivity|].
  apply (C97_quasi1_rate rneq (vec2 0 2 10) (2 / exp 10) (vec2 0 2 10) 1 (1 / exp 11) (19 / 20) 1 0 (fun _ => vec2 0 2 10) ball2 0 tr o' st'
    (Some 0%nat) (2 / exp 10) info); try lra; try assumption; try reflexivity.
  - apply ball2_proper.
  - apply Rdiv_lt_0_compat; lra.
  - apply disc_mem. unfold ball, dot. cbn. lra.
  - intros y Hy. split; [apply disc_mem; exact Hy|]. destruct (disc_coords_at _ _ y Hy) as [Y0 Y1]. split.
    + unfold q1_feas. nra.
    + unfold q1_val, Rdiv. pose proof (exp_pos (y 1%nat)). apply Rmult_le_compat; [lra|left; apply Rinv_0_lt_compat; lra|lra|].
      apply Rinv_le_contravar; [assumption|apply exp_le; lra].
  - rewrite unit_det. exact small_bound.
Qed.

(** ** C98: the same problem in the variables of tests/test_quasicvx2.py *)
Lemma sqrt_tangent u v : 0 < u -> 0 <= v -> sqrt v <= sqrt u + (1 / 2) / sqrt u * (v - u).
Proof.
  intros Hu Hv. pose proof (sqrt_lt_R0 u Hu) as Hr. pose proof (sqrt_sqrt u ltac:(lra)) as E1. pose proof (sqrt_sqrt v Hv) as E2.
  set (a := sqrt u) in *. set (b := sqrt v) in *. rewrite <- E1, <- E2.
  replace (a + 1 / 2 / a * (b * b - a * a)) with (b + (b - a) * (b - a) / (2 * a)) by (field; lra).
  assert (0 <= (b - a) * (b - a) / (2 * a)) by (apply Rmult_le_pos; [apply Rle_0_sqr|left; apply Rinv_0_lt_compat; lra]). lra.
Qed.
Lemma q2_pos z : q2_feas z -> 0 < z 1%nat.
Proof. intros [H _]. pose proof (exp_pos (z 0%nat)). lra. Qed.
Lemma q2_le z s : q2_feas z -> (q2_val z <= s <-> - sqrt (z 0%nat) <= s * z 1%nat).
Proof.
  intros Hz. pose proof (q2_pos z Hz) as Hp. unfold q2_val, Rdiv. split; intros H.
  - apply (Rmult_le_compat_r (z 1%nat)) in H; [|lra]. rewrite Rmult_assoc, Rinv_l, Rmult_1_r in H by lra. exact H.
  - apply Rmult_le_reg_r with (z 1%nat); [lra|]. rewrite Rmult_assoc, Rinv_l, Rmult_1_r by lra. exact H.
Qed.
Lemma q2_val_bound z : q2_feas z -> - q_peak <= q2_val z.
Proof.
  intros Hz. destruct (Rle_lt_dec (- q_peak) (q2_val z)) as [|L]; [assumption|exfalso].
  pose proof (q_peak_bound (sqrt (z 0%nat))) as Hb. destruct Hz as [H1 H2]. rewrite sqrt_sqrt in Hb by lra.
  pose proof q_peak_pos as Hp. pose proof (exp_pos (z 0%nat)).
  assert (q_peak * exp (z 0%nat) <= q_peak * z 1%nat) by (apply Rmult_le_compat_l; lra).
  unfold q2_val, Rdiv in L. apply (Rmult_lt_compat_r (z 1%nat)) in L; [|lra]. rewrite Rmult_assoc, Rinv_l, Rmult_1_r in L by lra. lra.
Qed.
Definition quasi2_omega (o : unit) (z : nat -> R) (t : R) : res (unit * (cut R * option R)) :=
  ' ((g, fj), t1) <- quasi2_call z t ;; Ok (tt, ((g, BScalar fj), t1)).
Theorem C98_quasi2_oracle :
  forall x t, exists g f t1, quasi2_call x t = Ok ((g, f), t1) /\ 0 <= f /\ nonzero 2 g /\
    (forall v, t1 = Some v <-> v = q2_val x /\ q2_feas x /\ v < t) /\
    (t1 <> None -> f = 0) /\
    (forall z, q2_feas z -> q2_val z <= best t t1 -> dot 2 g (fun k => z k - x k) + f <= 0).
Proof.
  intros x t. unfold quasi2_call. cbn [nexp RNumT]. change (@nltb R RNum) with Rltb. change (@nleb R RNum) with Rleb. change (@nzero R RNum) with 0.
  change (@nsub R RNum) with Rminus. change (@nmul R RNum) with Rmult. change (@nadd R RNum) with Rplus. change (@nopp R RNum) with Ropp.
  set (a := x 0%nat). set (b := x 1%nat).
  pose proof (exp_pos a) as He.
  destruct (Rltb 0 (exp a - b)) eqn:B; [apply Rltb_true in B|apply Rltb_false in B].
  { exists (arr2 (exp a) (- none)), (exp a - b), None. split; [reflexivity|]. split; [lra|]. split.
    { exists 1%nat. split; [lia|]. cbn. lra. }
    split; [intros v; split; [discriminate|]; intros (_ & [Hf _] & _); fold a b in Hf; lra|]. split; [congruence|].
    intros z [Hz _] _. unfold dot, arr2; cbn. fold a b. pose proof (exp_tangent a (z 0%nat)). lra. }
  rewrite (proj2 (Rleb_false b 0)) by lra.
  destruct (Rleb a 0) eqn:B2; [apply Rleb_true in B2|apply Rleb_false in B2].
  { exists (arr2 (- none) 0), (- a), None. split; [reflexivity|]. split; [lra|]. split.
    { exists 0%nat. split; [lia|]. cbn. lra. }
    split; [intros v; split; [discriminate|]; intros (_ & [_ Hf] & _); fold a b in Hf; lra|]. split; [congruence|].
    intros z [_ Hz] _. unfold dot, arr2; cbn. fold a b. lra. }
  assert (Hx : q2_feas x) by (split; fold a b; lra).
  rewrite rsqrt_ok by lra. cbn [bind]. rewrite rdiv_ok by (unfold two; cbn; lra). cbn [bind].
  pose proof (sqrt_lt_R0 a B2) as Hr.
  assert (Hcut : forall s z, q2_feas z -> q2_val z <= s ->
    dot 2 (arr2 (- (none / two) / sqrt a) (- s)) (fun k => z k - x k) + (- sqrt a - s * b) <= 0).
  { intros s z Hz Hv. apply (q2_le z s Hz) in Hv. destruct Hz as [Z1 Z2]. pose proof (sqrt_tangent a (z 0%nat) B2 ltac:(lra)) as Ht.
    unfold dot, arr2, two; cbn. fold a b. change (IZR 2) with 2. unfold Rdiv in *. lra. }
  destruct (Rltb (- sqrt a - t * b) 0) eqn:B3; [apply Rltb_true in B3|apply Rltb_false in B3].
  - rewrite rdiv_ok by lra. cbn [bind]. rewrite rdiv_ok by lra. cbn [bind].
    exists (arr2 (- (none / two) / sqrt a) (- (- sqrt a / b))), 0, (Some (- sqrt a / b)). split; [reflexivity|]. split; [lra|].
    assert (Ev : - sqrt a / b = q2_val x) by reflexivity.
    assert (Et : - sqrt a / b * b = - sqrt a) by (unfold Rdiv; rewrite Rmult_assoc, Rinv_l by lra; ring).
    split. { exists 0%nat. split; [lia|]. cbn. unfold two; cbn. assert (0 < 1 / 2 / sqrt a) by (repeat apply Rdiv_lt_0_compat; lra).
      unfold Rdiv in *. lra. }
    split; [intros v; split; [intros [= <-]; split; [exact Ev|]; split; [exact Hx|]|intros (-> & _); reflexivity]|].
    { apply Rmult_lt_reg_r with b; [lra|]. rewrite Et. lra. }
    split; [reflexivity|]. intros z Hz Hv. cbn [best] in Hv. specialize (Hcut _ z Hz Hv). rewrite Et in Hcut. lra.
  - rewrite rdiv_ok by lra. cbn [bind]. exists (arr2 (- (none / two) / sqrt a) (- t)), (- sqrt a - t * b), None. split; [reflexivity|]. split; [lra|].
    split. { exists 0%nat. split; [lia|]. cbn. unfold two; cbn. assert (0 < 1 / 2 / sqrt a) by (repeat apply Rdiv_lt_0_compat; lra).
      unfold Rdiv in *. lra. }
    split; [intros v; split; [discriminate|]; intros (-> & _ & Hv); apply Rlt_le in Hv as Hv'; exfalso|].
    { unfold q2_val in Hv. fold a b in Hv. apply (Rmult_lt_compat_r b) in Hv; [|lra]. unfold Rdiv in Hv. rewrite Rmult_assoc, Rinv_l, Rmult_1_r in Hv by lra. lra. }
    split; [congruence|]. intros z Hz Hv. cbn [best] in Hv. apply Hcut; assumption.
Qed.
Print Assumptions C98_quasi2_oracle.
Lemma quasi2_inv o x t o' c t1 : quasi2_omega o x t = Ok (o', (c, t1)) ->
  exists g f, quasi2_call x t = Ok ((g, f), t1) /\ c = (g, BScalar f).
Proof. intros H. apply bind_ok in H as ([[g f] s] & H & E). injection E as _ <- ->. eauto. Qed.
Lemma quasi2_optimizes : optimizes quasi2_omega (fun _ => True) (sat_cut 2) (fun s z => q2_feas z /\ q2_val z <= s).
Proof.
  intros o x t o1 c t1 _ E. split; [exact I|]. apply quasi2_inv in E as (g & f & E & ->).
  destruct (C98_quasi2_oracle x t) as (g' & f' & t' & E' & _ & _ & Hr & _ & Hv). rewrite E in E'. injection E' as <- <- <-.
  split; [intros z [Z1 Z2]; exact (Hv z Z1 Z2)|]. intros z [Z1 Z2]. split; [exact Z1|]. destruct t1 as [u|]; [|exact Z2].
  destruct (proj1 (Hr u) eq_refl) as (_ & _ & R2). cbn in Z2. lra.
Qed.
Theorem C98_quasi2_end_to_end :
  forall tneq max_it tol w e t tr o' w' e' xb t' info,
  (forall a b, tneq a b = true <-> a <> b) -> ell_wf e -> e_n e = 2%nat ->
  cutting_plane_dc ell_space Rltb tneq quasi2_omega max_it tol tt (w, e) t = Ok (tr, o', (w', e'), (xb, t', info)) ->
  (cstatus info = nosoln -> forall z, mem_ell (w, e) z -> q2_feas z -> t' < q2_val z) /\
  (cstatus info <> nosoln -> forall z, mem_ell (w, e) z -> q2_feas z -> q2_val z <= t' -> mem_ell (w', e') z) /\
  (feasible info = true <-> t' < t) /\ (feasible info = false <-> t' = t) /\
  (t' < t -> xb <> None /\ - q_peak <= t' /\ exists x, q2_feas x /\ t' = q2_val x) /\
  (t <= - q_peak -> feasible info = false /\ t' = t).
Proof.
  intros tneq max_it tol w e t tr o' w' e' xb t' info Hneq He En H.
  destruct (dc_bundle quasi2_omega tneq (fun _ => True) (fun s z => q2_feas z /\ q2_val z <= s) (fun s x => q2_feas x /\ s = q2_val x) Rle
    max_it tol tt w e t tr o' w' e' xb t' info) as (H1 & H2 & H3 & H4 & H5); try assumption; try exact I.
  - intros a. lra.
  - intros a b c. lra.
  - rewrite En. exact quasi2_optimizes.
  - intros o x t0 o1 c t1 _ E. apply quasi2_inv in E as (g & f & E & ->).
    destruct (C98_quasi2_oracle x t0) as (g' & f' & t2 & E' & _ & _ & Hr & _). rewrite E in E'. injection E' as <- <- <-.
    destruct (proj1 (Hr t1) eq_refl) as (R0 & R1 & R2). split; [auto|lra].
  - destruct (C04_dc_last_improvement _ _ _ _ _ _ _ _ _ _ _ _ _ _ _ _ _ _ _ _ _ _ H) as (_ & _ & Hf & _).
    assert (Ff : feasible info = true <-> t' < t).
    { rewrite Hf. rewrite Hneq. split; [intros Hn; destruct H3 as [|E]; [assumption|congruence]|lra]. }
    assert (Ff2 : feasible info = false <-> t' = t).
    { destruct (feasible info); [split; [discriminate|]; intros E; pose proof (proj1 Ff eq_refl); lra|].
      split; [|reflexivity]. intros _. destruct H3 as [L|L]; [|auto]. apply Ff in L. discriminate. }
    assert (Hpk : t' < t -> xb <> None /\ - q_peak <= t' /\ exists x, q2_feas x /\ t' = q2_val x).
    { intros L. assert (Hx : xb <> None) by (intros E; specialize (H4 E); lra). split; [exact Hx|].
      destruct (H5 Hx) as (x & G1 & G2). split; [pose proof (q2_val_bound _ G1); lra|]. exists x. auto. }
    split; [intros Hs z Hz Z1; destruct (Rlt_le_dec t' (q2_val z)) as [|L]; [assumption|destruct (H1 Hs z Hz (conj Z1 L))]|].
    split; [intros Hs z Hz Z1 Z2; apply (H2 Hs z Hz); split; assumption|].
    split; [exact Ff|]. split; [exact Ff2|]. split; [exact Hpk|].
    intros Hq. assert (E : t' = t) by (destruct H3 as [L|]; [destruct (Hpk L) as (_ & ? & _); lra|auto]).
    split; [apply Ff2, E|exact E].
Qed.
Print Assumptions C98_quasi2_end_to_end.
Lemma sqrt_concave th u v : 0 < th <= 1 -> 0 <= u -> 0 <= v -> (1 - th) * sqrt u + th * sqrt v <= sqrt ((1 - th) * u + th * v).
Proof.
  intros Hth Hu Hv. pose proof (sqrt_pos u) as Pu. pose proof (sqrt_pos v) as Pv.
  rewrite <- (sqrt_square ((1 - th) * sqrt u + th * sqrt v)) by nra. apply sqrt_le_1_alt.
  pose proof (sq_comb th (sqrt u) (sqrt v) Hth) as Hs. rewrite (sqrt_sqrt u Hu), (sqrt_sqrt v Hv) in Hs. exact Hs.
Qed.
Theorem C98_quasi2_rate :
  forall tneq xs vs c r F K th max_it tol w e t tr o' st' xb t' info,
  ell_wf e -> e_n e = 2%nat -> 0 < r -> 0 < th <= 1 -> tol <= 0 -> vs <= F -> 0 < K ->
  q2_feas xs -> q2_val xs <= vs -> mem_ell (w, e) xs ->
  (forall y, ball 2 c r y -> mem_ell (w, e) y /\ q2_feas y /\ q2_val y <= F /\ y 1%nat <= K * xs 1%nat) ->
  cutting_plane_dc ell_space Rltb tneq quasi2_omega max_it tol tt (w, e) t = Ok (tr, o', st', (xb, t', info)) ->
  cut_bound 2 (shape_det e) (th * r) < INR max_it ->
  t' <= vs + th * K / (1 - th + th * K) * (F - vs).
Proof.
  intros tneq xs vs c r F K th max_it tol w e t tr o' st' xb t' info He En Hr Hth Htol HvF HK Hx1 Hx2 Hms Hball H Hbd.
  destruct (Rle_lt_dec t' (vs + th * K / (1 - th + th * K) * (F - vs))) as [L|L]; [exact L|exfalso].
  pose proof quasi2_optimizes as Hopt. rewrite <- En in Hball, Hbd, Hopt.
  eapply (dc_shrunk_ball quasi2_omega tneq (fun _ => True) (fun s z => q2_feas z /\ q2_val z <= s) xs c r th); try eassumption; try exact I.
  - intros o x t0 o1 cu t1 _ E1. apply quasi2_inv in E1 as (g & f & E1 & ->).
    destruct (C98_quasi2_oracle x t0) as (g2 & f2 & t2 & E2 & Hf & _). rewrite E1 in E2. injection E2 as _ <- _. exact Hf.
  - intros y Hy. apply Hball, Hy.
  - intros y z Hy Ez. destruct (Hball y Hy) as (_ & Y1 & Y2 & Y3).
    apply (q2_le _ _ Hx1) in Hx2. apply (q2_le _ _ Y1) in Y2.
    pose proof (q2_pos _ Hx1) as Px. pose proof (q2_pos _ Y1) as Py.
    assert (Hz : q2_feas z).
    { destruct Hx1 as [A1 A2], Y1 as [B1 B2]. split; rewrite !Ez; [|nra].
      eapply Rle_trans; [apply exp_convex; lra|]. apply Rplus_le_compat; apply Rmult_le_compat_l; lra. }
    split; [exact Hz|]. apply (q2_le _ _ Hz). pose proof (q2_pos _ Hz) as Pz.
    assert (Hs : - sqrt (z 0%nat) <= (1 - th) * (vs * xs 1%nat) + th * (F * y 1%nat)).
    { rewrite Ez. destruct Hx1 as [_ A2], Y1 as [_ B2]. pose proof (sqrt_concave th (xs 0%nat) (y 0%nat) Hth ltac:(lra) ltac:(lra)).
      assert ((1 - th) * - sqrt (xs 0%nat) <= (1 - th) * (vs * xs 1%nat)) by (apply Rmult_le_compat_l; lra).
      assert (th * - sqrt (y 0%nat) <= th * (F * y 1%nat)) by (apply Rmult_le_compat_l; lra). lra. }
    eapply Rle_trans; [exact Hs|].
    assert (HD : 0 < 1 - th + th * K) by (assert (0 < th * K) by (apply Rmult_lt_0_compat; lra); lra).
    set (q := th * K / (1 - th + th * K)) in *.
    assert (Eq : q * (1 - th + th * K) = th * K) by (unfold q; field; lra).
    assert (Hq1 : q <= 1) by (apply Rmult_le_reg_r with (1 - th + th * K); [lra|]; lra).
    assert (Hq0 : 0 < q) by (apply Rdiv_lt_0_compat; [apply Rmult_lt_0_compat; lra|lra]).
    assert (Hw : th * y 1%nat <= q * z 1%nat).
    { rewrite Ez. set (X := xs 1%nat) in *. set (Y := y 1%nat) in *.
      (* (1-q) th Y <= (1-q) th K X = q (1-th) X *)
      assert ((1 - q) * th * Y <= (1 - q) * th * (K * X)) by (apply Rmult_le_compat_l; [apply Rmult_le_pos; lra|assumption]).
      assert ((1 - q) * th * (K * X) = q * (1 - th) * X).
      { replace ((1 - q) * th * (K * X)) with ((th * K - q * (th * K)) * X) by ring. f_equal. lra. }
      lra. }
    assert (Hlow : (1 - th) * (vs * xs 1%nat) + th * (F * y 1%nat) = vs * z 1%nat + (F - vs) * (th * y 1%nat)) by (rewrite Ez; ring).
    rewrite Hlow. assert ((F - vs) * (th * y 1%nat) <= (F - vs) * (q * z 1%nat)) by (apply Rmult_le_compat_l; lra).
    assert ((vs + q * (F - vs)) * z 1%nat <= t' * z 1%nat) by (apply Rmult_le_compat_r; lra). lra.
Qed.
Print Assumptions C98_quasi2_rate.
Example C98_ex : exists tr o' st' t' info,
  cutting_plane_dc ell_space Rltb rneq quasi2_omega 1 0 tt (fun _ => vec2 0 (3/2) 50, ball2) 0 = Ok (tr, o', st', (Some 0%nat, t', info)) /\
  t' = - sqrt (3 / 2) / 50 /\
  t' <= - sqrt (3 / 2) / 50 + 19 / 20 * 2 / (1 - 19 / 20 + 19 / 20 * 2) * (0 - - sqrt (3 / 2) / 50).
Proof.
  assert (Hsq : 0 < sqrt (3 / 2)) by (apply sqrt_lt_R0; lra).
  assert (He : forall u, u <= 5 / 2 -> exp u <= 27).
  { intros u Hu. eapply Rle_trans; [apply exp_le; exact Hu|]. apply Rle_trans with (exp 1 * exp 1 * exp 1).
    - rewrite <- !exp_plus. apply exp_le. lra.
    - pose proof exp_le_3. pose proof (exp_pos 1). nra. }
  assert (Hp : - sqrt (3 / 2) / 50 < 0) by lra.
  assert (Hf : q2_feas (vec2 0 (3/2) 50)) by (split; cbn; [pose proof (He (3/2) ltac:(lra)); lra|lra]).
  destruct (C98_quasi2_oracle (vec2 0 (3/2) 50) 0) as (g & f & t1 & E & Hf0 & Hg & Hs & _).
  assert (t1 = Some (- sqrt (3 / 2) / 50)) as -> by (apply Hs; split; [reflexivity|split; assumption]).
  assert (E' : quasi2_omega tt (vec2 0 (3/2) 50) 0 = Ok (tt, ((g, BScalar f), Some (- sqrt (3 / 2) / 50))))
    by (unfold quasi2_omega; rewrite E; reflexivity).
  destruct (dc_one_step quasi2_omega rneq 0 tt (fun _ => vec2 0 (3/2) 50) ball2 0 tt g (BScalar f) (Some (- sqrt (3 / 2) / 50)) ball2_proper Hg E' Hf0)
    as (tr & o' & st' & info & H).
  exists tr, o', st', (- sqrt (3 / 2) / 50), info. split; [exact H|]. split; [reflexivity|].
  apply (C98_quasi2_rate rneq (vec2 0 (3/2) 50) (- sqrt (3 / 2) / 50) (vec2 0 (3/2) 50) 1 0 2 (19 / 20) 1 0 (fun _ => vec2 0 (3/2) 50) ball2 0 tr o' st'
    (Some 0%nat) (- sqrt (3 / 2) / 50) info); try lra; try assumption; try reflexivity.
  - apply ball2_proper.
  - unfold q2_val; cbn; lra.
  - apply disc_mem. unfold ball, dot. cbn. lra.
  - intros y Hy. split; [apply disc_mem; exact Hy|]. destruct (disc_coords_at _ _ y Hy) as [Y0 Y1].
    assert (Fy : q2_feas y) by (split; [pose proof (He (y 0%nat) ltac:(lra)); lra|lra]). split; [exact Fy|]. split.
    + apply (q2_le _ _ Fy). pose proof (sqrt_pos (y 0%nat)). lra.
    + cbn. lra.
  - rewrite unit_det. exact small_bound.
Qed.

(** ** C99: the linear problem of tests/test_example1.py *)
Lemma ex_cons_spec x :
  match ex_cons x with
  | None => ex_feas x
  | Some (g, f) => 0 < f /\ nonzero 2 g /\ ~ ex_feas x /\ forall z, ex_feas z -> dot 2 g (fun k => z k - x k) + f <= 0
  end.
Proof.
  unfold ex_cons, ex_feas. change (@nltb R RNum) with Rltb. change (@nzero R RNum) with 0.
  change (@nsub R RNum) with Rminus. change (@nadd R RNum) with Rplus. change (@nopp R RNum) with Ropp. change (nofZ 3) with 3. change (@none R RNum) with 1.
  destruct (Rltb 0 (x 0%nat + x 1%nat - 3)) eqn:B; [apply Rltb_true in B|apply Rltb_false in B].
  { split; [lra|]. split; [exists 0%nat; split; [lia|cbn; lra]|]. split; [lra|]. intros z [Z1 Z2]. unfold dot, arr2; cbn. lra. }
  destruct (Rltb 0 (- x 0%nat + x 1%nat + 1)) eqn:B2; [apply Rltb_true in B2|apply Rltb_false in B2].
  { split; [lra|]. split; [exists 1%nat; split; [lia|cbn; lra]|]. split; [lra|]. intros z [Z1 Z2]. unfold dot, arr2; cbn. lra. }
  split; lra.
Qed.
Definition ex1_omega (o : unit) (z : nat -> R) (t : option R) : res (unit * (cut R * option (option R))) :=
  let '((g, fj), t1) := ex1_call z t in Ok (tt, ((g, BScalar fj), t1)).
Lemma ex1_spec x t : exists g f t1, ex1_call x t = ((g, f), Some t1) /\ 0 <= f /\ nonzero 2 g /\
  (t1 = t \/ ex_feas x /\ t1 = Some (ex_val x) /\ match t with Some t => t < ex_val x | None => True end) /\
  (ex_feas x -> atleast t1 (ex_val x) -> t1 = Some (ex_val x)) /\
  (forall z, ex_feas z -> atleast t1 (ex_val z) -> dot 2 g (fun k => z k - x k) + f <= 0).
Proof.
  unfold ex1_call. pose proof (ex_cons_spec x) as Hc. destruct (ex_cons x) as [[g f]|].
  - destruct Hc as (Hf & Hg & Hn & Hc). exists g, f, t. split; [reflexivity|]. split; [lra|]. split; [exact Hg|]. split; [left; reflexivity|].
    split; [contradiction|]. intros z Hz _. exact (Hc z Hz).
  - assert (Hg : nonzero 2 (arr2 (- none) (- none) : nat -> R)) by (exists 0%nat; split; [lia|cbn; lra]).
    change (nadd (x 0%nat) (x 1%nat)) with (ex_val x). change (@nltb R RNum) with Rltb. change (@nzero R RNum) with 0.
    change (@nsub R RNum) with Rminus.
    destruct t as [t|]; [destruct (Rltb (t - ex_val x) 0) eqn:B; [apply Rltb_true in B|apply Rltb_false in B]|].
    + exists (arr2 (- none) (- none)), 0, (Some (ex_val x)). split; [reflexivity|]. split; [lra|]. split; [exact Hg|].
      split; [right; split; [exact Hc|split; [reflexivity|lra]]|]. split; [reflexivity|].
      intros z Hz L. cbn in L. unfold ex_val in *. unfold dot, arr2; cbn. lra.
    + exists (arr2 (- none) (- none)), (t - ex_val x), (Some t). split; [reflexivity|]. split; [lra|]. split; [exact Hg|].
      split; [left; reflexivity|]. split; [intros _ L; cbn in L; f_equal; lra|].
      intros z Hz L. cbn in L. unfold ex_val in *. unfold dot, arr2; cbn. lra.
    + exists (arr2 (- none) (- none)), 0, (Some (ex_val x)). split; [reflexivity|]. split; [lra|]. split; [exact Hg|].
      split; [right; split; [exact Hc|split; [reflexivity|exact I]]|]. split; [reflexivity|].
      intros z Hz L. cbn in L. unfold ex_val in *. unfold dot, arr2; cbn. lra.
Qed.
Lemma ex1_inv o x t o' c t1 : ex1_omega o x t = Ok (o', (c, t1)) -> exists g f, ex1_call x t = ((g, f), t1) /\ c = (g, BScalar f).
Proof. unfold ex1_omega. destruct (ex1_call x t) as [[g f] s]. intros [= _ <- <-]. eauto. Qed.
Lemma ex1_optimizes : optimizes ex1_omega (fun _ => True) (sat_cut 2) (fun t z => ex_feas z /\ atleast t (ex_val z)).
Proof.
  intros o x t o1 c t1 _ E. split; [exact I|]. apply ex1_inv in E as (g & f & E & ->).
  destruct (ex1_spec x t) as (g' & f' & t' & E' & _ & _ & Hr & _ & Hv). rewrite E in E'. injection E' as <- <- ->. cbn [best].
  split; [intros z [Z1 Z2]; exact (Hv z Z1 Z2)|]. intros z [Z1 Z2]. split; [exact Z1|].
  destruct Hr as [->|(_ & -> & L)]; [exact Z2|]. destruct t as [t|]; [cbn in *; lra|exact I].
Qed.
(** Full claim: if the run returns a point, some visited centre was feasible and the returned value is its
    objective.  What holds is the second half, for the runs that say feasible. *)
Theorem C99_linear_end_to_end_partial :
  forall tneq max_it tol w e t tr o' w' e' xb t' info,
  (forall a b, tneq a b = true <-> a <> b) -> ell_wf e -> e_n e = 2%nat ->
  cutting_plane_dc ell_space Rltb tneq ex1_omega max_it tol tt (w, e) t = Ok (tr, o', (w', e'), (xb, t', info)) ->
  (cstatus info = nosoln -> forall z, mem_ell (w, e) z -> ex_feas z -> ~ atleast t' (ex_val z)) /\
  (cstatus info <> nosoln -> forall z, mem_ell (w, e) z -> ex_feas z -> atleast t' (ex_val z) -> mem_ell (w', e') z) /\
  (feasible info = true -> exists ev, In ev tr /\ ex_feas (d_x ev) /\ t' = Some (ex_val (d_x ev)) /\ ex_val (d_x ev) <= 3 /\
     match t with Some t => t < ex_val (d_x ev) | None => True end) /\
  (feasible info = false -> t' = t) /\
  (forall s, t = Some s -> 3 <= s -> feasible info = false) /\
  (t = None -> feasible info = false -> forall ev, In ev tr -> ~ ex_feas (d_x ev)).
Proof.
  intros tneq max_it tol w e t tr o' w' e' xb t' info Hneq He En H.
  pose proof ex1_optimizes as Hopt. rewrite <- En in Hopt.
  destruct (C06_dc_ell_never_loses_better _ _ tneq _ (fun _ => True) _ max_it tol tt w e t tr o' w' e' xb t' info Hopt He I H) as [H1 H2].
  destruct (C04_dc_last_improvement _ _ _ _ _ _ _ _ _ _ _ _ _ _ _ _ _ _ _ _ _ _ H) as (Hr & _ & Hf & _).
  assert (Hm : (t' = t \/ exists ev, In ev tr /\ ex_feas (d_x ev) /\ t' = Some (ex_val (d_x ev)) /\
      match t with Some t => t < ex_val (d_x ev) | None => True end) /\
    (t' = None -> forall ev, In ev tr -> ~ ex_feas (d_x ev)) /\ (forall s, t = Some s -> t' <> None)).
  { clear - Hr. revert Hr. generalize (w, e) as st, (w', e') as st'. intros st st' Hr.
    induction Hr as [o st t|o st t c t1 o1 st1 s q tr o' st' t' Hom Hup Hr IH].
    { split; [auto|]. split; [contradiction|]. intros s -> [=]. }
    destruct IH as (I1 & I2 & I3). apply ex1_inv in Hom as (g & f & E & ->).
    destruct (ex1_spec (centre ell_space st) t) as (g' & f' & u & E' & _ & _ & Hs & Hu & _). rewrite E in E'. injection E' as <- <- ->. cbn [best] in *.
    split; [|split].
    - destruct I1 as [->|(ev & Hin & F1 & F2 & F3)].
      + destruct Hs as [->|(S1 & -> & S3)]; [auto|]. right. eexists. split; [left; reflexivity|]. cbn. auto.
      + right. exists ev. split; [right; exact Hin|]. split; [exact F1|]. split; [exact F2|].
        destruct Hs as [->|(S1 & -> & S3)]; [exact F3|]. destruct t as [t|]; [lra|exact I].
    - intros Hn ev [<-|Hin]; [|apply I2; assumption]. cbn. intros Hx.
      destruct u as [u|]; [destruct (I3 u eq_refl Hn)|]. specialize (Hu Hx I). discriminate.
    - intros v -> . destruct Hs as [->|(S1 & -> & S3)]; eapply I3; reflexivity. }
  destruct Hm as (M1 & M2 & M3).
  assert (F0 : feasible info = false -> t' = t).
  { intros F. rewrite Hf in F. destruct t' as [a|], t as [b|]; try reflexivity;
      try (assert (N : forall u v : option R, u <> v -> tneq u v = true) by (intros; apply Hneq; assumption); rewrite N in F by discriminate; discriminate).
    destruct (Req_EM_T a b) as [->|Hab]; [reflexivity|]. rewrite (proj2 (Hneq _ _)) in F by congruence. discriminate. }
  split; [intros Hs z Hz Z1 Z2; exact (H1 Hs z Hz (conj Z1 Z2))|].
  split; [intros Hs z Hz Z1 Z2; exact (H2 Hs z Hz (conj Z1 Z2))|].
  assert (F1 : feasible info = true -> exists ev, In ev tr /\ ex_feas (d_x ev) /\ t' = Some (ex_val (d_x ev)) /\ ex_val (d_x ev) <= 3 /\
     match t with Some t => t < ex_val (d_x ev) | None => True end).
  { intros F. rewrite Hf in F. apply Hneq in F. destruct M1 as [->|(ev & A1 & A2 & A3 & A4)]; [contradiction|].
    exists ev. split; [assumption|]. split; [assumption|]. split; [assumption|]. split; [apply A2|assumption]. }
  split; [exact F1|]. split; [exact F0|]. split.
  - intros s -> Hs. destruct (feasible info); [|reflexivity]. destruct (F1 eq_refl) as (ev & _ & _ & _ & L1 & L2). lra.
  - intros -> F. apply M2, F0, F.
Qed.
Print Assumptions C99_linear_end_to_end_partial.
(** The oracle hands t back, instead of None, with the cuts at infeasible points: a run that has seen no
    feasible point still returns one. *)
Theorem C99_returned_point_refuted :
  ~ (forall tneq max_it tol w e t tr o' st' xb t' info,
     (forall a b, tneq a b = true <-> a <> b) -> ell_wf e -> e_n e = 2%nat ->
     cutting_plane_dc ell_space Rltb tneq ex1_omega max_it tol tt (w, e) t = Ok (tr, o', st', (xb, t', info)) ->
     xb <> None -> exists ev, In ev tr /\ ex_feas (d_x ev)).
Proof.
  intros Hall.
  set (x := vec2 0 100 100).
  destruct (ex1_spec x None) as (g & f & t1 & E & Hf & Hg & Hr & _).
  assert (Hx : ~ ex_feas x) by (unfold ex_feas, x; cbn; lra).
  assert (t1 = None) as -> by (destruct Hr as [|(F & _)]; [assumption|contradiction]).
  assert (E' : ex1_omega tt x None = Ok (tt, ((g, BScalar f), Some None))) by (unfold ex1_omega; rewrite E; reflexivity).
  set (tneq := fun a b : option R => match a, b with Some a, Some b => rneq a b | None, None => false | _, _ => true end).
  destruct (dc_one_step ex1_omega tneq 0 tt (fun _ => x) ball2 None tt g (BScalar f) (Some None) ball2_proper Hg E' Hf)
    as (tr & o' & st' & info & H).
  destruct (Hall tneq 1%nat 0 (fun _ => x) ball2 None tr o' st' (Some 0%nat) None info) as (ev & Hin & Hev); try exact H; try reflexivity; try discriminate.
  - intros [a|] [b|]; cbn; rewrite ?rneq_true; split; intros; congruence.
  - apply ball2_proper.
  - destruct (C04_dc_last_improvement _ _ _ _ _ _ _ _ _ _ _ _ _ _ _ _ _ _ _ _ _ _ H) as (Hrp & _ & _ & Hn & _).
    assert (Hle : (length tr <= 1)%nat) by (apply dc_spec in H as (_ & _ & Hn' & Hle & _); lia).
    inversion Hrp as [|o0 st0 t0 c t1 o1 st1 s q tr1 o2 st2 t2 Hom Hup Hr2]; subst; [contradiction|].
    destruct tr1; [|cbn in Hle; lia]. destruct Hin as [<-|[]]. cbn in Hev. contradiction.
Qed.
Print Assumptions C99_returned_point_refuted.
Theorem C99_linear_rate :
  forall tneq xs c r F th max_it tol w e t tr o' st' xb t' info,
  ell_wf e -> e_n e = 2%nat -> 0 < r -> 0 < th <= 1 -> tol <= 0 ->
  ex_feas xs -> mem_ell (w, e) xs ->
  (forall y, ball 2 c r y -> mem_ell (w, e) y /\ ex_feas y /\ F <= ex_val y) ->
  cutting_plane_dc ell_space Rltb tneq ex1_omega max_it tol tt (w, e) t = Ok (tr, o', st', (xb, t', info)) ->
  cut_bound 2 (shape_det e) (th * r) < INR max_it ->
  exists v, t' = Some v /\ (1 - th) * ex_val xs + th * F <= v.
Proof.
  intros tneq xs c r F th max_it tol w e t tr o' st' xb t' info He En Hr Hth Htol Hxs Hms Hball H Hbd.
  pose proof ex1_optimizes as Hopt. rewrite <- En in Hball, Hbd, Hopt.
  assert (Hno : ~ forall y z, ball (e_n e) c r y -> (forall i, z i = (1 - th) * xs i + th * y i) -> ex_feas z /\ atleast t' (ex_val z)).
  { eapply (dc_shrunk_ball ex1_omega tneq (fun _ => True) (fun t z => ex_feas z /\ atleast t (ex_val z)) xs c r th); try eassumption; try exact I.
    - intros o x t0 o1 cu t1 _ E. apply ex1_inv in E as (g & f & E & ->).
      destruct (ex1_spec x t0) as (g' & f' & u & E' & Hf & _). rewrite E in E'. injection E' as _ <- _. exact Hf.
    - intros y Hy. apply Hball, Hy. }
  assert (Hmix : forall y z, ball (e_n e) c r y -> (forall i, z i = (1 - th) * xs i + th * y i) ->
    ex_feas z /\ (1 - th) * ex_val xs + th * F <= ex_val z).
  { intros y z Hy Ez. destruct (Hball y Hy) as (_ & [Y1 Y2] & Y3). destruct Hxs as [X1 X2]. unfold ex_feas, ex_val in *. rewrite !Ez. nra. }
  destruct t' as [v|]; [|exfalso; apply Hno; intros y z Hy Ez; split; [eapply Hmix; eassumption|exact I]].
  exists v. split; [reflexivity|]. destruct (Rle_lt_dec ((1 - th) * ex_val xs + th * F) v) as [|L]; [assumption|exfalso].
  apply Hno. intros y z Hy Ez. destruct (Hmix y z Hy Ez). split; [assumption|]. cbn. lra.
Qed.
Print Assumptions C99_linear_rate.
Example C99_ex : exists tr o' st' info,
  cutting_plane_dc ell_space Rltb (fun a b => match a, b with Some a, Some b => rneq a b | None, None => false | _, _ => true end)
    ex1_omega 1 0 tt (fun _ => vec2 0 2 (-2), ball2) None = Ok (tr, o', st', (Some 0%nat, Some 0, info)) /\
  feasible info = true /\ exists v, Some 0 = Some v /\ (1 - 19 / 20) * 0 + 19 / 20 * (- (3 / 2)) <= v.
Proof.
  set (x := vec2 0 2 (-2)). set (tneq := fun a b : option R => match a, b with Some a, Some b => rneq a b | None, None => false | _, _ => true end).
  destruct (ex1_spec x None) as (g & f & t1 & E & Hf & Hg & Hr & _).
  assert (Hx : ex_feas x) by (unfold ex_feas, x; cbn; lra).
  assert (Ev : ex_val x = 0) by (unfold ex_val, x; cbn; ring).
  assert (t1 = Some 0) as ->.
  { destruct Hr as [->|(_ & -> & _)]; [|rewrite Ev; reflexivity]. exfalso. clear - E Hx. unfold ex1_call in E.
    pose proof (ex_cons_spec x) as Hc. destruct (ex_cons x) as [[a b]|]; [tauto|discriminate]. }
  assert (E' : ex1_omega tt x None = Ok (tt, ((g, BScalar f), Some (Some 0)))) by (unfold ex1_omega; rewrite E; reflexivity).
  destruct (dc_one_step ex1_omega tneq 0 tt (fun _ => x) ball2 None tt g (BScalar f) (Some (Some 0)) ball2_proper Hg E' Hf)
    as (tr & o' & st' & info & H).
  exists tr, o', st', info. split; [exact H|]. split.
  { destruct (C04_dc_last_improvement _ _ _ _ _ _ _ _ _ _ _ _ _ _ _ _ _ _ _ _ _ _ H) as (_ & _ & -> & _). reflexivity. }
  cut (exists v, Some 0 = Some v /\ (1 - 19 / 20) * ex_val x + 19 / 20 * (- (3 / 2)) <= v); [rewrite Ev; exact (fun h => h)|].
  apply (C99_linear_rate tneq x x 1 (- (3 / 2)) (19 / 20) 1 0 (fun _ => x) ball2 None tr o' st' (Some 0%nat) (Some 0) info);
    try lra; try assumption; try reflexivity.
  - apply ball2_proper.
  - apply disc_mem. unfold ball, dot, x. cbn. lra.
  - intros y Hy. split; [apply disc_mem; exact Hy|]. unfold ball, dot, x in Hy. cbn in Hy. unfold ex_feas, ex_val.
    set (a := y 0%nat - 2) in *. set (b := y 1%nat - -2) in *.
    assert (Hs2 : forall u, u * u <= 2 -> - (3 / 2) <= u <= 3 / 2) by (intros u Hu; split; nra).
    assert (0 <= (a - b) * (a - b)) by apply Rle_0_sqr. assert (0 <= (a + b) * (a + b)) by apply Rle_0_sqr.
    pose proof (Hs2 (a + b) ltac:(lra)). pose proof (Hs2 (a - b) ltac:(lra)). unfold a, b in *. lra.
  - rewrite unit_det. exact small_bound.
Qed.

(** ** C100: the feasibility problem of tests/test_example2.py *)
Definition ex2_omega (o : unit) (z : nat -> R) : res (unit * option (cut R)) :=
  Ok (tt, match ex_cons z with Some (g, f) => Some (g, BScalar f) | None => None end).
Lemma ex2_separates : separates ex2_omega (fun _ => True) (sat_cut 2) ex_feas.
Proof.
  intros o x o' a _ [= _ <-]. split; [exact I|]. pose proof (ex_cons_spec x) as Hc. destruct (ex_cons x) as [[g f]|]; [|exact I].
  intros z Hz. apply Hc, Hz.
Qed.
Theorem C100_linear_feasibility :
  forall max_it tol w e tr o' w' e' info,
  ell_wf e -> e_n e = 2%nat ->
  cutting_plane_feas ell_space Rltb ex2_omega max_it tol tt (w, e) = Ok (tr, o', (w', e'), info) ->
  (feasible info = true -> ex_feas (w' (e_xc e'))) /\
  (cstatus info = nosoln -> forall z, mem_ell (w, e) z -> ~ ex_feas z) /\
  (cstatus info <> nosoln -> forall z, mem_ell (w, e) z -> ex_feas z -> mem_ell (w', e') z).
Proof.
  intros max_it tol w e tr o' w' e' info He En H. pose proof ex2_separates as Hs. rewrite <- En in Hs.
  split; [|exact (C03_feas_ell_never_loses unit ex2_omega (fun _ => True) ex_feas max_it tol tt w e tr o' w' e' info Hs He I H)].
  intros F. destruct (C01_feas_only_at_approved_centre _ _ _ _ _ _ _ _ _ _ _ _ _ _ _ _ _ H) as (Hr & Hc & _).
  destruct (Hc F) as (tr0 & ->).
  destruct (replay_last_none ell_space ex2_omega (fun _ => True)) with
    (tr0 := tr0) (o := tt) (st := (w, e)) (x := centre ell_space (w', e')) (o' := o') (st' := (w', e')) as (o1 & _ & Hq & _); auto.
  unfold ex2_omega in Hq. pose proof (ex_cons_spec (centre ell_space (w', e'))) as Hx.
  destruct (ex_cons (centre ell_space (w', e'))) as [[g f]|]; [discriminate Hq|]. exact Hx.
Qed.
Print Assumptions C100_linear_feasibility.
Theorem C100_linear_found :
  forall c r max_it tol w e,
  ell_wf e -> e_n e = 2%nat -> 0 < r -> tol <= 0 ->
  (forall z, ball 2 c r z -> mem_ell (w, e) z /\ ex_feas z) ->
  (1 <= max_it)%nat -> cut_bound 2 (shape_det e) r < INR max_it ->
  exists tr o' w' e' info, cutting_plane_feas ell_space Rltb ex2_omega max_it tol tt (w, e) = Ok (tr, o', (w', e'), info) /\
    feasible info = true /\ INR (num_iters info) <= cut_bound 2 (shape_det e) r + 1 /\ ex_feas (w' (e_xc e')).
Proof.
  intros c r max_it tol w e He En Hr Htol Hball Hm Hbd. pose proof ex2_separates as Hs. rewrite <- En in Hball, Hbd, Hs.
  destruct (C79_feas_finds_a_point _ ex2_omega (fun _ => True) c r max_it tol tt w e)
    as (tr & o' & [w' e'] & info & H & Hf & Hit); try assumption; try exact I.
  - intros z Hz. apply Hball; exact Hz.
  - intros o x o' a Ho Hx. destruct (Hs o x o' a Ho Hx) as [H1 H2]. split; [assumption|].
    destruct a; [|exact I]. intros z Hz. apply H2, Hball, Hz.
  - intros o x o' cu _ Hx. unfold ex2_omega in Hx. pose proof (ex_cons_spec x) as Hc. destruct (ex_cons x) as [[g f]|]; [|discriminate]. injection Hx as _ <-.
    rewrite En. destruct Hc as (Hf & Hg & _). split; [exact Hg|cbn; lra].
  - intros o x _. eexists. reflexivity.
  - exists tr, o', w', e', info. split; [exact H|]. split; [exact Hf|]. rewrite En in Hit. split; [exact Hit|].
    exact (proj1 (C100_linear_feasibility max_it tol w e tr o' w' e' info He En H) Hf).
Qed.
Print Assumptions C100_linear_found.
Lemma exp_mul_nat n u : exp (INR n * u) = exp u ^ n.
Proof. induction n as [|n IH]; [cbn; rewrite Rmult_0_l; apply exp_0|]. rewrite S_INR, Rmult_plus_distr_r, Rmult_1_l, exp_plus, IH. cbn. ring. Qed.
(** The run of tests/test_example2.py, ell(10, (0, 0)) (with tolerance 0): a feasible point within 15 iterations. *)
Example C100_ex : exists e tr o' w' e' info, ell_init (A := R) (VScalar 10) 2 0%nat = Ok e /\
  cutting_plane_feas ell_space Rltb ex2_omega 2000 0 tt (fun _ => vec2 0 0 0, e) = Ok (tr, o', (w', e'), info) /\
  feasible info = true /\ (num_iters info <= 15)%nat /\ ex_feas (w' (e_xc e')).
Proof.
  destruct (C26_construction (VScalar 10) 2 0%nat (fun _ => vec2 0 0 0) ltac:(lia)) as (e & E & En & _ & Hmem & Hwf & _).
  assert (Hd : shape_det e = 100).
  { unfold ell_init in E. rewrite !rdiv_ok in E by (cbn; lra). cbn [bind] in E. injection E as <-. unfold shape_det; cbn. unfold eye; cbn. ring. }
  assert (Hb : cut_bound 2 (shape_det e) (11 / 10) <= 14).
  { rewrite Hd. unfold cut_bound. replace (INR 2 + 1) with 3 by (cbn; ring).
    enough (ln (100 / (11 / 10 * (11 / 10)) ^ 2) <= 14 / 3) by lra.
    rewrite <- (ln_exp (14 / 3)). assert (L : 100 / (11 / 10 * (11 / 10)) ^ 2 <= exp (14 / 3)).
    { replace (14 / 3) with (INR 56 * (1 / 12)) by (rewrite INR_IZR_INZ; cbn; field). rewrite exp_mul_nat.
      apply Rle_trans with ((1 + 1 / 12) ^ 56); [|apply pow_incr; split; [lra|apply exp_ge_1p]]. lra. }
    destruct L as [L| ->]; [left; apply ln_increasing; [lra|exact L]|lra]. }
  destruct (C100_linear_found (vec2 0 (14 / 10) (- (12 / 10))) (11 / 10) 2000 0 (fun _ => vec2 0 0 0) e) as (tr & o' & w' & e' & info & H & Hf & Hn & Hx);
    try lra; try assumption.
  - apply Hwf. lra.
  - intros z Hz. unfold ball, dot in Hz. cbn in Hz. set (a := z 0%nat) in *. set (b := z 1%nat) in *.
    assert (Hs : forall u, u * u <= 242 / 100 -> - (156 / 100) <= u <= 156 / 100) by (intros u Hu; split; nra).
    set (a' := a - 14 / 10) in *. set (b' := b - - (12 / 10)) in *.
    assert (0 <= (a' - b') * (a' - b')) by apply Rle_0_sqr. assert (0 <= (a' + b') * (a' + b')) by apply Rle_0_sqr.
    pose proof (Hs (a' + b') ltac:(lra)). pose proof (Hs (a' - b') ltac:(lra)). split.
    + apply Hmem. unfold dot; cbn. fold a b.
      replace (0 + (a - 0) * (a - 0) + (b - 0) * (b - 0)) with (a' * a' + b' * b' + (28 / 10 * a' - 24 / 10 * b') + 340 / 100) by (unfold a', b'; field).
      assert (Hc : 28 / 10 * a' - 24 / 10 * b' <= 406 / 100).
      { assert (Hs2 : forall u, u * u <= 406 / 100 * (406 / 100) -> u <= 406 / 100) by (intros u Hu; nra). apply Hs2.
        assert (0 <= (24 / 10 * a' + 28 / 10 * b') * (24 / 10 * a' + 28 / 10 * b')) by apply Rle_0_sqr. lra. }
      lra.
    + unfold ex_feas. fold a b. unfold a', b' in *. lra.
  - lia.
  - eapply Rle_lt_trans; [exact Hb|]. rewrite INR_IZR_INZ. apply IZR_lt. reflexivity.
  - exists e, tr, o', w', e', info. split; [exact E|]. split; [exact H|]. split; [exact Hf|]. split; [|exact Hx].
    apply INR_le. eapply Rle_trans; [exact Hn|]. rewrite (INR_IZR_INZ 15). change (IZR (Z.of_nat 15)) with 15. lra.
Qed.
