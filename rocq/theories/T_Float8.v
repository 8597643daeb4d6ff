(** Property theorems about degenerate gradients in NumPy arithmetic (C143, C144). *)
From Coq Require Import ZArith Reals Lra Lia Bool List Permutation.
From Coq Require Import Floats.SpecFloat.
From Flocq Require Import Core.Core IEEE754.BinarySingleNaN.
From Verif Require Import Base M_Drivers M_Ell M_Misc M_Float M_FloatN P_Float P_Float2 S_Float P_FSum T_Float.
Import ListNotations.

Notation nan := (B754_nan : b64).
Definition zeroish (x : b64) : Prop := exists s, x = B754_zero s.
Definition zn (x : b64) : Prop := zeroish x \/ x = nan.

Lemma zeroish_dec (x : b64) : zeroish x \/ ~ zeroish x.
Proof. destruct x as [s|s| |s m ee H]; [left; exists s; reflexivity| | |]; right; intros [s' E]; discriminate E. Qed.
Lemma nan_mul_l y : fmul nan y = nan. Proof. destruct y; reflexivity. Qed.
Lemma nan_mul_r x : fmul x nan = nan. Proof. destruct x; reflexivity. Qed.
Lemma nan_add_l y : fadd nan y = nan. Proof. destruct y; reflexivity. Qed.
Lemma nan_add_r x : fadd x nan = nan. Proof. destruct x; reflexivity. Qed.
Lemma nan_sub_l y : fsub nan y = nan. Proof. destruct y; reflexivity. Qed.
Lemma nan_sub_r x : fsub x nan = nan. Proof. destruct x; reflexivity. Qed.
Lemma nan_div_l y : fdiv nan y = nan. Proof. destruct y; reflexivity. Qed.
Lemma nan_div_r x : fdiv x nan = nan. Proof. destruct x; reflexivity. Qed.
Lemma zn_mul_r x y : zn y -> zn (fmul x y).
Proof.
  intros [[s ->]| ->]; [|right; apply nan_mul_r].
  destruct x as [t|t| |t m ee H]; [left; eexists; reflexivity|right; reflexivity|right; reflexivity|left; eexists; reflexivity].
Qed.
Lemma zn_mul_l x y : zn x -> zn (fmul x y).
Proof.
  intros [[s ->]| ->]; [|right; apply nan_mul_l].
  destruct y as [t|t| |t m ee H]; [left; eexists; reflexivity|right; reflexivity|right; reflexivity|left; eexists; reflexivity].
Qed.
Lemma zn_add x y : zn x -> zn y -> zn (fadd x y).
Proof.
  intros [[s ->]| ->] [[s' ->]| ->]; try (right; reflexivity). left. destruct s, s'; eexists; reflexivity.
Qed.
Notation ffma := (@Bfma 53 1024 prec64 emax64 mode_NE).
Lemma nan_fma_l y z : ffma nan y z = nan. Proof. destruct y; reflexivity. Qed.
Lemma nan_fma_m x z : ffma x nan z = nan. Proof. destruct x; reflexivity. Qed.
Lemma nan_fma_r x y : ffma x y nan = nan.
Proof. destruct x as [s|s| |s m ee H], y as [s'|s'| |s' m' ee' H']; reflexivity. Qed.
Lemma zn_fma x y z : zn y -> zn z -> zn (ffma x y z).
Proof.
  intros [[s ->]| ->]; [|intros _; right; apply nan_fma_m].
  intros [[s' ->]| ->]; [|right; apply nan_fma_r].
  destruct x as [t|t| |t m ee H]; try (right; reflexivity); left; destruct t, s, s'; eexists; reflexivity.
Qed.
Lemma fsum_zn u v l s : fsum u v l s -> (forall k, In k l -> zn (v k)) -> zn s.
Proof.
  induction 1 as [|k|k l s H IH|l1 l2 s1 s2 H1 I1 H2 I2]; intros Z.
  - left; exists false; reflexivity.
  - apply zn_mul_r, Z. left; reflexivity.
  - apply zn_fma; [apply Z; left; reflexivity|apply IH; intros; apply Z; right; assumption].
  - apply zn_add; [apply I1|apply I2]; intros; apply Z, in_or_app; auto.
Qed.
Lemma fsum_nan u v l s k : fsum u v l s -> In k l -> u k = nan \/ v k = nan -> s = nan.
Proof.
  induction 1 as [|j|j l s H IH|l1 l2 s1 s2 H1 I1 H2 I2]; intros I E.
  - destruct I.
  - destruct I as [->|[]]. destruct E as [-> | ->]; [apply nan_mul_l|apply nan_mul_r].
  - destruct I as [->|I].
    + destruct E as [-> | ->]; [apply nan_fma_l|apply nan_fma_m].
    + rewrite (IH I E). apply nan_fma_r.
  - apply in_app_or in I as [I|I]; [rewrite (I1 I E); apply nan_add_l|rewrite (I2 I E); apply nan_add_r].
Qed.
Lemma fdot_zn dot n u v : fdot_any dot -> (forall k, (k < n)%nat -> zn (v k)) -> zn (dot n u v).
Proof.
  intros HD Z. destruct (HD n u v) as (l & P & F). apply (fsum_zn u v l _ F). intros k I. apply Z.
  apply (Permutation_in _ P) in I. apply in_seq in I. lia.
Qed.
Lemma fdot_nan dot n u v k : fdot_any dot -> (k < n)%nat -> u k = nan \/ v k = nan -> dot n u v = nan.
Proof.
  intros HD K E. destruct (HD n u v) as (l & P & F). apply (fsum_nan u v l _ k F); [|exact E].
  apply (Permutation_in _ (Permutation_sym P)). apply in_seq. lia.
Qed.

(** a cut whose gradient is zero and whose offset is zero, or whose gradient has a NaN entry *)
Definition zero_cut (n : nat) (c : cut b64) : Prop :=
  (forall i, (i < n)%nat -> zeroish (fst c i)) /\ exists b, snd c = BScalar b /\ zeroish b.
Definition nan_cut (n : nat) (c : cut b64) : Prop :=
  (exists i, (i < n)%nat /\ fst c i = nan) /\ exists b, snd c = BScalar b.
Definition nan_centre (n : nat) (v : nat -> b64) : Prop := forall i, (i < n)%nat -> v i = nan.

Section Update.
Variable dot : nat -> (nat -> b64) -> (nat -> b64) -> b64.
Hypothesis HD : fdot_any dot.
Notation upd := (@ell_update b64 (FNumP dot)).

(** an update leaves the location of the centre and the dimension alone, and a NaN entry stays NaN *)
Lemma upd_keeps w e c w' e' r : upd (w, e) c = Ok ((w', e'), r) ->
  e_xc e' = e_xc e /\ e_n e' = e_n e /\ (forall i, w (e_xc e) i = nan -> w' (e_xc e) i = nan).
Proof.
  destruct c as [g beta]. unfold ell_update. intros H. apply bind_ok in H as ([tsq out] & _ & H).
  destruct out as [s|rho sigma delta].
  - assert (E : (w', e') = (w, e)) by congruence. assert (w' = w) by congruence. assert (e' = e) by congruence. subst. auto.
  - apply bind_ok in H as (ro & _ & H). cbv zeta in H. apply bind_ok in H as (so & _ & H).
    match type of H with Ok (?a, ?b, _) = _ => assert (Ew : w' = a) by congruence; assert (Ee : e' = b) by congruence end. clear H.
    split; [|split].
    + rewrite Ee. destruct (e_nodefer e); reflexivity.
    + rewrite Ee. destruct (e_nodefer e); reflexivity.
    + intros i Hi. rewrite Ew. unfold mem_set. rewrite Nat.eqb_refl. destruct (Nat.ltb i (e_n e)); [|exact Hi].
      rewrite Hi. apply nan_sub_l.
Qed.

Lemma upd_zero w e g b : (forall i, (i < e_n e)%nat -> zeroish (g i)) -> zeroish b ->
  exists w' e' tsq, upd (w, e) (g, BScalar b) = Ok ((w', e'), (success, tsq)) /\ zn tsq /\ nan_centre (e_n e) (w' (e_xc e)).
Proof.
  intros Hg [sb ->]. set (n := e_n e) in *.
  assert (Qz : forall i, zn (dot n (e_Q e i) g)) by (intros i; apply fdot_zn; [exact HD|]; intros k Hk; left; apply Hg, Hk).
  assert (Oz : zn (dot n g (@mv b64 (FNumP dot) n (e_Q e) g))) by (apply fdot_zn; [exact HD|]; intros k _; apply Qz).
  unfold ell_update. fold n. change (@ndot b64 (FNumP dot)) with dot. set (om := dot n g (@mv b64 (FNumP dot) n (e_Q e) g)) in *.
  assert (Tz : zn (fmul (e_kappa e) om)) by (apply zn_mul_r, Oz). change (@nmul b64 (FNumP dot)) with fmul. set (T := fmul (e_kappa e) om) in *.
  assert (S : exists tau, @calc_ll b64 (FNumP dot) e T (BScalar (B754_zero sb)) = Ok (T, Go (fdiv tau (e_nPlus1 e)) (e_c2 e) (e_c1 e)) /\ zn tau).
  { unfold calc_ll, calc_dc, calc_cc. change (@nsqrt b64 (FNumP dot)) with fsqrtr. destruct Tz as [[s E]|E]; rewrite E.
    - exists (B754_zero s). split; [|left; exists s; reflexivity]. destruct s, sb; reflexivity.
    - exists nan. split; [|right; reflexivity]. destruct sb; reflexivity. }
  destruct S as (tau & E & Tau). rewrite E. cbn [bind]. change (@ndiv b64 (FNumP dot)) with (fun x y : b64 => Ok (fdiv x y)). cbv beta. cbn [bind].
  do 2 eexists. exists T. split; [reflexivity|]. split; [exact Tz|].
  assert (RN : fdiv (fdiv tau (e_nPlus1 e)) om = nan).
  { assert (R : zn (fdiv tau (e_nPlus1 e)) \/ exists s, fdiv tau (e_nPlus1 e) = B754_zero s).
    { destruct Tau as [[s ->]| ->]; [|left; right; apply nan_div_l].
      destruct (e_nPlus1 e) as [t|t| |t m ee H]; [left; right; reflexivity|right; eexists; reflexivity|left; right; reflexivity|right; eexists; reflexivity]. }
    assert (R' : zn (fdiv tau (e_nPlus1 e))) by (destruct R as [R|[s R]]; [exact R|left; exists s; exact R]).
    destruct R' as [[s R']|R']; rewrite R'; [|apply nan_div_l]. destruct Oz as [[s' ->]| ->]; reflexivity. }
  intros i Hi. unfold mem_set. rewrite Nat.eqb_refl. fold n. destruct (Nat.ltb_spec i n); [|lia].
  change (@nsub b64 (FNumP dot)) with fsub. rewrite RN, nan_mul_l. apply nan_sub_r.
Qed.

Lemma upd_om w e g b : dot (e_n e) g (@mv b64 (FNumP dot) (e_n e) (e_Q e) g) = nan ->
  exists w' e', upd (w, e) (g, BScalar b) = Ok ((w', e'), (success, nan)) /\ nan_centre (e_n e) (w' (e_xc e)) /\
    (forall i j, e_Q e' i j = nan) /\ e_n e' = e_n e.
Proof.
  set (n := e_n e) in *. intros Oz.
  unfold ell_update. fold n. change (@ndot b64 (FNumP dot)) with dot. rewrite Oz.
  change (@nmul b64 (FNumP dot)) with fmul. rewrite nan_mul_r.
  assert (S : exists rho sigma delta, @calc_ll b64 (FNumP dot) e nan (BScalar b) = Ok (nan, Go rho sigma delta)).
  { unfold calc_ll, calc_dc, calc_cc. change (@nsqrt b64 (FNumP dot)) with fsqrtr. change (fsqrtr nan) with (Ok nan). cbn [bind].
    change (@nsub b64 (FNumP dot)) with fsub. change (@nadd b64 (FNumP dot)) with fadd. change (@ndiv b64 (FNumP dot)) with (fun x y : b64 => Ok (fdiv x y)).
    change (@nltb b64 (FNumP dot)) with (fun x y : b64 => Bltb x y). cbv beta zeta. rewrite nan_sub_l, !nan_add_l.
    change (Bltb nan nzero) with false. cbv iota. destruct (@neqb b64 (FNumP dot) b nzero); cbn [bind]; do 3 eexists; reflexivity. }
  destruct S as (rho & sigma & delta & E). rewrite E. cbn [bind]. change (@ndiv b64 (FNumP dot)) with (fun x y : b64 => Ok (fdiv x y)). cbv beta. cbn [bind].
  rewrite !nan_div_r. do 2 eexists. split; [reflexivity|]. split; [|split].
  - intros i Hi. unfold mem_set. rewrite Nat.eqb_refl. fold n. destruct (Nat.ltb_spec i n); [|lia].
    change (@nsub b64 (FNumP dot)) with fsub. rewrite nan_mul_l. apply nan_sub_r.
  - intros i j. destruct (e_nodefer e); cbn [e_Q ell_set_Q ell_set_kappa]; change (@nsub b64 (FNumP dot)) with fsub; change (@nmul b64 (FNumP dot)) with fmul;
      rewrite nan_mul_l, nan_sub_r, ?nan_mul_l; reflexivity.
  - destruct (e_nodefer e); reflexivity.
Qed.
Lemma om_nan_g e g k : (k < e_n e)%nat -> g k = nan -> dot (e_n e) g (@mv b64 (FNumP dot) (e_n e) (e_Q e) g) = nan.
Proof. intros Hk Hg. apply (fdot_nan dot _ _ _ k HD Hk). auto. Qed.
Lemma om_nan_Q e g : (0 < e_n e)%nat -> (forall i j, e_Q e i j = nan) -> dot (e_n e) g (@mv b64 (FNumP dot) (e_n e) (e_Q e) g) = nan.
Proof.
  intros Hn HQ. apply (fdot_nan dot _ _ _ 0%nat HD Hn). right. unfold mv. apply (fdot_nan dot _ _ _ 0%nat HD Hn). left. apply HQ.
Qed.
End Update.

Section Runs.
Variable dot : nat -> (nat -> b64) -> (nat -> b64) -> b64.
Hypothesis HD : fdot_any dot.
Notation esp := (@ell_space b64 (FNumP dot)).
Notation ev64 T := (devent (nat -> b64) (cut b64) b64 T).

Definition poison (n : nat) (c : cut b64) : Prop := zero_cut n c \/ nan_cut n c.

Lemma upd_poison w e c : poison (e_n e) c ->
  exists w' e' tsq, @ell_update b64 (FNumP dot) (w, e) c = Ok ((w', e'), (success, tsq)) /\ nan_centre (e_n e) (w' (e_xc e)).
Proof.
  destruct c as [g beta]. intros [[Hg (b & E & Hb)]|[(k & Hk & Eg) (b & E)]]; cbn in *; subst beta.
  - destruct (upd_zero dot HD w e g b Hg Hb) as (w' & e' & tsq & E & _ & N). exists w', e', tsq. auto.
  - destruct (upd_om dot w e g b (om_nan_g dot HD e g k Hk Eg)) as (w' & e' & E & N & _). exists w', e', nan. auto.
Qed.

Lemma dc_nan {O T} (ltb : b64 -> b64 -> bool) (tneq : T -> T -> bool) (omega : O -> (nat -> b64) -> T -> res (O * (cut b64 * option T))) k :
  forall niter tol t0 o w e t xb tr o' w' e' xb' t' info,
  dc_loop esp ltb tneq omega k niter tol t0 o (w, e) t xb = Ok (tr, o', (w', e'), (xb', t', info)) ->
  (xb = None \/ xb = Some (e_xc e)) ->
  (xb' = None \/ xb' = Some (e_xc e)) /\ e_xc e' = e_xc e /\
  (nan_centre (e_n e) (w (e_xc e)) \/ (exists ev, In ev tr /\ poison (e_n e) (d_cut ev)) -> nan_centre (e_n e) (w' (e_xc e))).
Proof.
  induction k as [|k IH]; intros niter tol t0 o w e t xb tr o' w' e' xb' t' info H X; cbn [dc_loop] in H.
  - assert (tr = []) by congruence. assert (w' = w) by congruence. assert (e' = e) by congruence. assert (xb' = xb) by congruence. subst.
    split; [exact X|]. split; [reflexivity|]. intros [N|(ev & [] & _)]. exact N.
  - apply bind_ok in H as ((o1 & cut & t1) & Ho & H). apply bind_ok in H as (((w1 & e1) & cs & tsq) & Hu & H).
    cbn [sp_update ell_space] in Hu. cbn [sp_xc ell_space snd] in H.
    destruct (upd_keeps dot w e cut w1 e1 _ Hu) as (Kx & Kn & Kc).
    assert (X1 : (match t1 with Some _ => Some (e_xc e) | None => xb end) = None \/ (match t1 with Some _ => Some (e_xc e) | None => xb end) = Some (e_xc e)) by (destruct t1; auto).
    set (xb1 := match t1 with Some _ => Some (e_xc e) | None => xb end) in *.
    assert (N1 : nan_centre (e_n e) (w (e_xc e)) \/ poison (e_n e) cut -> nan_centre (e_n e) (w1 (e_xc e))).
    { intros [N|Pz]; [intros i Hi; apply Kc, N, Hi|].
      destruct (upd_poison w e cut Pz) as (w2 & e2 & ts & E & N). assert (w2 = w1) by congruence. subst. exact N. }
    destruct (negb (status_eqb cs success)); [|destruct (ltb tsq tol)].
    1,2: match type of H with Ok ([?ev], _, _, _) = _ => assert (tr = [ev]) by congruence end; assert (w' = w1) by congruence; assert (e' = e1) by congruence; assert (xb' = xb1) by congruence; subst tr w' e' xb';
      split; [exact X1|]; split; [exact Kx|]; intros [N|(ev & [<-|[]] & Pz)]; apply N1; auto.
    apply bind_ok in H as ((((tr1 & o2) & st2) & r) & Hl & H).
    match type of H with Ok (?ev :: _, _, _, _) = _ => assert (tr = ev :: tr1) by congruence end. assert (st2 = (w', e')) by congruence. assert (r = (xb', t', info)) by congruence. subst tr st2 r.
    rewrite <- Kx in X1. apply IH in Hl; [|exact X1]. destruct Hl as (A1 & A2 & A3). rewrite Kx, Kn in *. split; [exact A1|]. split; [congruence|].
    intros [N|(ev & [<-|I] & Pz)]; apply A3; [left; apply N1; auto|left; apply N1; right; exact Pz|right; exists ev; auto].
Qed.

(** once omega has been NaN in an update, every later scalar cut is answered success with tsq NaN *)
Lemma dc_never {O T} (tneq : T -> T -> bool) (omega : O -> (nat -> b64) -> T -> res (O * (cut b64 * option T))) :
  (forall o x t o' c t1, omega o x t = Ok (o', (c, t1)) -> exists b, snd c = BScalar b) ->
  forall k niter tol t0 o w e t xb tr o' st' xb' t' info,
  dc_loop esp (fun x y : b64 => Bltb x y) tneq omega k niter tol t0 o (w, e) t xb = Ok (tr, o', st', (xb', t', info)) ->
  (0 < e_n e)%nat -> (forall i j, e_Q e i j = nan) ->
  length tr = k /\ cstatus info = success /\ num_iters info = (niter + k)%nat /\ forall ev, In ev tr -> d_status ev = success /\ d_tsq ev = nan.
Proof.
  intros Hs. induction k as [|k IH]; intros niter tol t0 o w e t xb tr o' st' xb' t' info H Hn HQ; cbn [dc_loop] in H.
  - assert (tr = []) by congruence. subst tr. match type of H with Ok (_, _, _, (_, _, ?i)) = _ => assert (info = i) by congruence end. subst info.
    cbn. split; [reflexivity|]. split; [reflexivity|]. split; [lia|]. intros ev [].
  - apply bind_ok in H as ((o1 & [g beta] & t1) & Ho & H). destruct (Hs _ _ _ _ _ _ Ho) as (b & Eb). cbn in Eb. subst beta.
    destruct (upd_om dot w e g b (om_nan_Q dot HD e g Hn HQ)) as (w1 & e1 & Eu & _ & HQ1 & Hn1).
    apply bind_ok in H as (((w2 & e2) & cs & tsq) & Hu & H). cbn [sp_update ell_space] in Hu. rewrite Eu in Hu.
    assert (w2 = w1) by congruence. assert (e2 = e1) by congruence. assert (cs = success) by congruence. assert (tsq = nan) by congruence. subst w2 e2 cs tsq.
    cbn [status_eqb negb] in H. change (Bltb nan tol) with false in H. cbv iota in H.
    apply bind_ok in H as ((((tr1 & o2) & st2) & r) & Hl & H). destruct r as [[xb2 t2] info2].
    match type of H with Ok (?ev :: _, _, _, _) = _ => assert (tr = ev :: tr1) by congruence end. assert (info2 = info) by congruence. subst tr info2.
    apply IH in Hl; [|rewrite Hn1; exact Hn|exact HQ1]. destruct Hl as (A1 & A2 & A3 & A4). cbn [length]. split; [congruence|]. split; [exact A2|]. split; [lia|].
    intros ev [<-|I]; [cbn; auto|apply A4, I].
Qed.

Lemma dc_nan_last {O T} (tneq : T -> T -> bool) (omega : O -> (nat -> b64) -> T -> res (O * (cut b64 * option T))) :
  (forall o x t o' c t1, omega o x t = Ok (o', (c, t1)) -> exists b, snd c = BScalar b) ->
  forall k niter tol t0 o w e t xb tr o' st' xb' t' info ev,
  dc_loop esp (fun x y : b64 => Bltb x y) tneq omega k niter tol t0 o (w, e) t xb = Ok (tr, o', st', (xb', t', info)) ->
  In ev tr -> nan_cut (e_n e) (d_cut ev) ->
  cstatus info = success /\ num_iters info = (niter + k)%nat.
Proof.
  intros Hs. induction k as [|k IH]; intros niter tol t0 o w e t xb tr o' st' xb' t' info ev H I Nc; cbn [dc_loop] in H.
  - assert (tr = []) by congruence. subst tr. destruct I.
  - apply bind_ok in H as ((o1 & [g beta] & t1) & Ho & H). destruct (Hs _ _ _ _ _ _ Ho) as (b & Eb). cbn in Eb. subst beta.
    apply bind_ok in H as (((w1 & e1) & cs & tsq) & Hu & H). cbn [sp_update ell_space] in Hu.
    destruct (upd_keeps dot w e _ w1 e1 _ Hu) as (Kx & Kn & _).
    assert (D : nan_cut (e_n e) (g, BScalar b) ->
      cs = success /\ tsq = nan /\ (0 < e_n e1)%nat /\ forall i j, e_Q e1 i j = nan).
    { intros [(q & Hq & Eq) _]. cbn in Eq. destruct (upd_om dot w e g b (om_nan_g dot HD e g q Hq Eq)) as (w2 & e2 & Eu & _ & HQ & Hn).
      rewrite Eu in Hu. assert (e1 = e2) by congruence. assert (cs = success) by congruence. assert (tsq = nan) by congruence. subst. repeat split; auto. lia. }
    destruct (status_eqb cs success) eqn:Ecs; cbn [negb] in H; [destruct (Bltb tsq tol) eqn:El|].
    + match type of H with Ok ([?x], _, _, _) = _ => assert (tr = [x]) by congruence end. subst tr. destruct I as [<-|[]]. cbn in Nc.
      destruct (D Nc) as (_ & -> & _). discriminate El.
    + apply bind_ok in H as ((((tr1 & o2) & st2) & r) & Hl & H). destruct r as [[xb2 t2] info2].
      match type of H with Ok (?ev :: _, _, _, _) = _ => assert (tr = ev :: tr1) by congruence end. assert (info2 = info) by congruence. subst tr info2.
      destruct I as [<-|I].
      * cbn in Nc. destruct (D Nc) as (_ & _ & Hn & HQ). destruct (dc_never tneq omega Hs _ _ _ _ _ _ _ _ _ _ _ _ _ _ _ Hl Hn HQ) as (_ & A & B & _). split; [exact A|lia].
      * rewrite <- Kn in Nc. destruct (IH _ _ _ _ _ _ _ _ _ _ _ _ _ _ _ Hl I Nc) as (A & B). split; [exact A|lia].
    + match type of H with Ok ([?x], _, _, _) = _ => assert (tr = [x]) by congruence end. subst tr. destruct I as [<-|[]]. cbn in Nc.
      destruct (D Nc) as (-> & _). discriminate Ecs.
Qed.

(** the feasibility driver after a NaN update: [nan_centre] and Q all NaN at every later step *)
Lemma feas_never {O} (omega : O -> (nat -> b64) -> res (O * option (cut b64))) :
  (forall o x o' c, omega o x = Ok (o', Some c) -> exists b, snd c = BScalar b) ->
  forall k niter tol o w e tr o' w' e' info,
  feas_loop esp (fun x y : b64 => Bltb x y) omega k niter tol o (w, e) = Ok (tr, o', (w', e'), info) ->
  (0 < e_n e)%nat -> (forall i j, e_Q e i j = nan) -> nan_centre (e_n e) (w (e_xc e)) ->
  cstatus info = success /\ (feasible info = true \/ num_iters info = (niter + k)%nat) /\
  (forall ev, In ev tr -> nan_centre (e_n e) (fst ev)) /\ nan_centre (e_n e) (w' (e_xc e)).
Proof.
  intros Hs. induction k as [|k IH]; intros niter tol o w e tr o' w' e' info H Hn HQ Hc; cbn [feas_loop] in H.
  - assert (tr = []) by congruence. assert (w' = w) by congruence. match type of H with Ok (_, _, _, ?i) = _ => assert (info = i) by congruence end. subst.
    cbn. split; [reflexivity|]. split; [right; lia|]. split; [intros ev []|exact Hc].
  - apply bind_ok in H as ((o1 & [[g beta]|]) & Ho & H).
    + destruct (Hs _ _ _ _ Ho) as (b & Eb). cbn in Eb. subst beta.
      destruct (upd_om dot w e g b (om_nan_Q dot HD e g Hn HQ)) as (w1 & e1 & Eu & Hc1 & HQ1 & Hn1).
      destruct (upd_keeps dot w e _ w1 e1 _ Eu) as (Kx & _ & _).
      apply bind_ok in H as (((w2 & e2) & cs & tsq) & Hu & H). cbn [sp_update ell_space] in Hu. rewrite Eu in Hu.
      assert (w2 = w1) by congruence. assert (e2 = e1) by congruence. assert (cs = success) by congruence. assert (tsq = nan) by congruence. subst w2 e2 cs tsq.
      cbn [status_eqb negb] in H. change (Bltb nan tol) with false in H. cbv iota in H.
      apply bind_ok in H as ((((tr1 & o2) & st2) & r) & Hl & H).
      match type of H with Ok (?ev :: _, _, _, _) = _ => assert (tr = ev :: tr1) by congruence end. assert (r = info) by congruence. assert (st2 = (w', e')) by congruence. subst tr r st2.
      rewrite <- Kx, <- Hn1 in Hc1. apply IH in Hl; [|rewrite Hn1; exact Hn|exact HQ1|exact Hc1]. rewrite Hn1, Kx in Hl. destruct Hl as (A1 & A2 & A3 & A4).
      split; [exact A1|]. split; [destruct A2; [left; assumption|right; lia]|]. split; [|exact A4].
      intros ev [<-|I]; [exact Hc|apply A3, I].
    + match type of H with Ok ([?ev], _, _, ?i) = _ => assert (tr = [ev]) by congruence; assert (info = i) by congruence end. assert (w' = w) by congruence. subst.
      cbn. split; [reflexivity|]. split; [left; reflexivity|]. split; [|exact Hc]. intros ev [<-|[]]. exact Hc.
Qed.
Lemma feas_nan_last {O} (omega : O -> (nat -> b64) -> res (O * option (cut b64))) :
  (forall o x o' c, omega o x = Ok (o', Some c) -> exists b, snd c = BScalar b) ->
  forall k niter tol o w e tr o' w' e' info x c s ts,
  feas_loop esp (fun x y : b64 => Bltb x y) omega k niter tol o (w, e) = Ok (tr, o', (w', e'), info) ->
  In (x, Some (c, s, ts)) tr -> nan_cut (e_n e) c ->
  cstatus info = success /\ (feasible info = true \/ num_iters info = (niter + k)%nat) /\ nan_centre (e_n e) (w' (e_xc e)).
Proof.
  intros Hs. induction k as [|k IH]; intros niter tol o w e tr o' w' e' info x c s ts H I Nc; cbn [feas_loop] in H.
  - assert (tr = []) by congruence. subst tr. destruct I.
  - apply bind_ok in H as ((o1 & [[g beta]|]) & Ho & H).
    2:{ match type of H with Ok ([?ev], _, _, ?i) = _ => assert (tr = [ev]) by congruence end. subst tr. destruct I as [I|[]]. discriminate I. }
    destruct (Hs _ _ _ _ Ho) as (b & Eb). cbn in Eb. subst beta.
    apply bind_ok in H as (((w1 & e1) & cs & tsq) & Hu & H). cbn [sp_update ell_space] in Hu.
    destruct (upd_keeps dot w e _ w1 e1 _ Hu) as (Kx & Kn & _).
    assert (D : nan_cut (e_n e) (g, BScalar b) ->
      cs = success /\ tsq = nan /\ (0 < e_n e1)%nat /\ (forall i j, e_Q e1 i j = nan) /\ nan_centre (e_n e1) (w1 (e_xc e1))).
    { intros [(q & Hq & Eq) _]. cbn in Eq. destruct (upd_om dot w e g b (om_nan_g dot HD e g q Hq Eq)) as (w2 & e2 & Eu & Hc & HQ & Hn).
      rewrite Eu in Hu. assert (e1 = e2) by congruence. assert (w1 = w2) by congruence. assert (cs = success) by congruence. assert (tsq = nan) by congruence. subst.
      repeat split; auto; [lia|]. rewrite Hn, Kx. exact Hc. }
    destruct (status_eqb cs success) eqn:Ecs; cbn [negb] in H; [destruct (Bltb tsq tol) eqn:El|].
    + match type of H with Ok ([?x], _, _, _) = _ => assert (tr = [x]) by congruence end. subst tr. destruct I as [I|[]].
      assert (c = (g, BScalar b)) by congruence. subst c.
      destruct (D Nc) as (_ & -> & _). discriminate El.
    + apply bind_ok in H as ((((tr1 & o2) & st2) & r) & Hl & H).
      match type of H with Ok (?ev :: _, _, _, _) = _ => assert (tr = ev :: tr1) by congruence end. assert (r = info) by congruence. assert (st2 = (w', e')) by congruence. subst tr r st2.
      destruct I as [I|I].
      * assert (c = (g, BScalar b)) by congruence. subst c. destruct (D Nc) as (_ & _ & Hn & HQ & Hc).
        destruct (feas_never omega Hs _ _ _ _ _ _ _ _ _ _ _ Hl Hn HQ Hc) as (A & B & _ & Z). rewrite Kn, Kx in Z.
        split; [exact A|]. split; [destruct B; [left; assumption|right; lia]|exact Z].
      * rewrite <- Kn in Nc. destruct (IH _ _ _ _ _ _ _ _ _ _ _ _ _ _ Hl I Nc) as (A & B & Z). rewrite Kn, Kx in Z.
        split; [exact A|]. split; [destruct B; [left; assumption|right; lia]|exact Z].
    + match type of H with Ok ([?x], _, _, _) = _ => assert (tr = [x]) by congruence end. subst tr. destruct I as [I|[]].
      assert (c = (g, BScalar b)) by congruence. subst c.
      destruct (D Nc) as (-> & _). discriminate Ecs.
Qed.
End Runs.

(** ** C143 *)
Theorem C143_zero_gradient dot w e g b :
  fdot_any dot -> (forall i, (i < e_n e)%nat -> zeroish (g i)) -> zeroish b ->
  exists w' e' tsq, @ell_update b64 (FNumP dot) (w, e) (g, BScalar b) = Ok ((w', e'), (success, tsq)) /\
    (zeroish tsq \/ tsq = nan) /\ nan_centre (e_n e) (w' (e_xc e)).
Proof. intros HD Hg Hb. exact (upd_zero dot HD w e g b Hg Hb). Qed.
Print Assumptions C143_zero_gradient.

(** with a nonzero offset the zero gradient is answered without touching the object: 0 * x + beta <= 0 has no solution
    when beta > 0 and excludes nothing when beta < 0 *)
Lemma fsum_zeroish u v l s : fsum u v l s -> (forall k, In k l -> is_finite (u k) = true /\ zeroish (v k)) -> zeroish s.
Proof.
  assert (M : forall x y : b64, is_finite x = true -> zeroish y -> zeroish (fmul x y)) by (intros x y F [t ->]; destruct x; try discriminate F; eexists; reflexivity).
  induction 1 as [|k|k l s H IH|l1 l2 s1 s2 H1 I1 H2 I2]; intros Z.
  - exists false; reflexivity.
  - apply M; apply Z; left; reflexivity.
  - destruct IH as [q ->]; [intros; apply Z; right; assumption|]. destruct (Z k (or_introl eq_refl)) as [F [t ->]].
    destruct (u k) as [p|p| |p m ee Hm]; try discriminate F; destruct p, t, q; eexists; reflexivity.
  - destruct I1 as [p ->]; [intros; apply Z, in_or_app; auto|]. destruct I2 as [q ->]; [intros; apply Z, in_or_app; auto|].
    destruct p, q; eexists; reflexivity.
Qed.
Lemma fdot_zeroish dot n u v : fdot_any dot -> (forall k, (k < n)%nat -> is_finite (u k) = true /\ zeroish (v k)) -> zeroish (dot n u v).
Proof.
  intros HD Z. destruct (HD n u v) as (l & P & F). apply (fsum_zeroish u v l _ F). intros k I. apply Z.
  apply (Permutation_in _ P) in I. apply in_seq in I. lia.
Qed.
Theorem C143_zero_gradient_deep dot w e g b :
  fdot_any dot -> (forall i, (i < e_n e)%nat -> zeroish (g i)) ->
  (forall i j, (i < e_n e)%nat -> (j < e_n e)%nat -> is_finite (e_Q e i j) = true) -> is_finite (e_kappa e) = true ->
  (1 <= e_n e)%nat -> (Z.of_nat (e_n e) <= 2 ^ 20)%Z -> is_finite b = true -> (Rabs (B2R b) <= pow2 1000)%R ->
  exists tsq, zeroish tsq /\
  ((0 < B2R b)%R -> @ell_update b64 (FNumP dot) (w, e) (g, BScalar b) = Ok ((w, e), (nosoln, tsq))) /\
  ((B2R b < 0)%R -> @ell_update b64 (FNumP dot) (w, e) (g, BScalar b) = Ok ((w, e), (noeffect, tsq))).
Proof.
  intros HD Hg HQ Hk Hn1 Hn2 Fb Bb.
  assert (Oz : zeroish (dot (e_n e) g (@mv b64 (FNumP dot) (e_n e) (e_Q e) g))).
  { apply fdot_zeroish; [exact HD|]. intros k Hk'. split; [destruct (Hg k Hk') as [t ->]; reflexivity|].
    apply fdot_zeroish; [exact HD|]. intros j Hj. split; [apply HQ; assumption|apply Hg, Hj]. }
  set (om := dot (e_n e) g (@mv b64 (FNumP dot) (e_n e) (e_Q e) g)) in *.
  assert (Tz : exists s, fmul (e_kappa e) om = B754_zero s).
  { destruct Oz as [t ->]. destruct (e_kappa e); try discriminate Hk; eexists; reflexivity. }
  destruct Tz as [s Es]. exists (B754_zero s). split; [exists s; reflexivity|].
  assert (U : forall st, @calc_dc b64 (FNumP dot) e (B754_zero s) b = Ok (B754_zero s, Stop st) ->
     @ell_update b64 (FNumP dot) (w, e) (g, BScalar b) = Ok ((w, e), (st, B754_zero s))).
  { intros st E. unfold ell_update. change (@ndot b64 (FNumP dot) (e_n e) g (@mv b64 (FNumP dot) (e_n e) (e_Q e) g)) with om.
    change (@nmul b64 (FNumP dot) (e_kappa e) om) with (fmul (e_kappa e) om). rewrite Es. unfold calc_ll. rewrite E. reflexivity. }
  assert (SG : (forall t m ee H, b = B754_finite t m ee H -> if t then (B2R b < 0)%R else (0 < B2R b)%R)).
  { intros t m ee H ->. cbn [B2R]. destruct t; [apply F2R_lt_0|apply F2R_gt_0]; reflexivity. }
  split; intros Hb; apply U.
  - destruct b as [t|t| |t m ee H]; try discriminate Fb; [cbn in Hb; lra|]. destruct t; [specialize (SG _ _ _ _ eq_refl); cbv iota in SG; lra|].
    unfold calc_dc. change (@nsqrt b64 (FNumP dot) (B754_zero s)) with (Ok (B754_zero s : b64)). cbn [bind].
    change (@nsub b64 (FNumP dot) (B754_zero s) (B754_finite false m ee H)) with (B754_finite true m ee H : b64). reflexivity.
  - assert (T3 : Bltb (fadd (B754_zero s) (fmul (fmake (Z.of_nat (e_n e)) 0) b)) fzero = true).
    { set (nn := Z.of_nat (e_n e)) in *.
      assert (NE : B2R (fmake nn 0) = IZR nn /\ is_finite (fmake nn 0) = true).
      { destruct (fmake_exact nn 0) as [N1 N2].
        - change (pow2 0) with 1%R. rewrite Rmult_1_r. apply fmt_Z. lia.
        - change (pow2 0) with 1%R. rewrite Rmult_1_r, <- abs_IZR. apply Rle_lt_trans with (pow2 20); [change (pow2 20) with (IZR (2 ^ 20)); apply IZR_le; lia|apply bpow_lt; lia].
        - split; [rewrite N1; change (pow2 0) with 1%R; ring|exact N2]. }
      destruct NE as [NR NF].
      assert (N1 : (1 <= IZR nn <= pow2 20)%R).
      { split; [apply IZR_le; lia|]. change (pow2 20) with (IZR (2 ^ 20)). apply IZR_le. lia. }
      destruct (fmul_rnd (fmake nn 0) b NF Fb) as [EM FM].
      { rewrite NR, Rabs_mult, (Rabs_pos_eq (IZR nn)) by lra. apply Rle_trans with (pow2 20 * pow2 1000)%R.
        - apply Rmult_le_compat; [lra|apply Rabs_pos|lra|exact Bb].
        - rewrite <- bpow_plus. apply bpow_le. lia. }
      assert (LM : (B2R (fmul (fmake nn 0) b) <= B2R b)%R).
      { rewrite EM, NR. apply rnd_le; [nra|apply fmt_b64]. }
      destruct (fadd_exact (B754_zero s) (fmul (fmake nn 0) b)) as [EA FA]; [reflexivity|exact FM| | |].
      { cbn [B2R]. rewrite Rplus_0_l. apply fmt_b64. }
      { cbn [B2R]. rewrite Rplus_0_l. apply abs_B2R_lt_emax. }
      rewrite f64_ltb by (auto; reflexivity). rewrite EA. change (B2R fzero) with 0%R. cbn [B2R]. apply Rlt_bool_true. lra. }
    destruct b as [t|t| |t m ee H]; try discriminate Fb; [cbn in Hb; lra|]. destruct t; [|specialize (SG _ _ _ _ eq_refl); cbv iota in SG; lra].
    unfold calc_dc. change (@nsqrt b64 (FNumP dot) (B754_zero s)) with (Ok (B754_zero s : b64)). cbn [bind].
    change (@nsub b64 (FNumP dot) (B754_zero s) (B754_finite true m ee H)) with (B754_finite false m ee H : b64).
    change (@nltb b64 (FNumP dot) (B754_finite false m ee H) nzero) with false. cbv iota.
    change (@neqb b64 (FNumP dot) (B754_finite true m ee H) nzero) with false. cbv iota zeta.
    change (@nltb b64 (FNumP dot)) with (fun x y : b64 => Bltb x y). cbv beta.
    match goal with |- context [Bltb ?x ?y] => change (Bltb x y) with (Bltb (fadd (B754_zero s) (fmul (fmake (Z.of_nat (e_n e)) 0) (B754_finite true m ee H))) fzero) end.
    rewrite T3. reflexivity.
Qed.
Print Assumptions C143_zero_gradient_deep.

(** one such cut anywhere in a run of cutting_plane_dc leaves no usable point: what is returned as x_best, and the
    array the caller constructed the search space with, are NaN in every component *)
Theorem C143_run_result_is_nan dot {O T} (ltb : b64 -> b64 -> bool) (tneq : T -> T -> bool)
  (omega : O -> (nat -> b64) -> T -> res (O * (cut b64 * option T))) max_it tol o w e t tr o' w' e' xb t' info ev :
  fdot_any dot ->
  cutting_plane_dc (@ell_space b64 (FNumP dot)) ltb tneq omega max_it tol o (w, e) t = Ok (tr, o', (w', e'), (xb, t', info)) ->
  In ev tr -> zero_cut (e_n e) (d_cut ev) \/ nan_cut (e_n e) (d_cut ev) ->
  nan_centre (e_n e) (w' (e_xc e)) /\ forall l, xb = Some l -> nan_centre (e_n e) (sp_deref (@ell_space b64 (FNumP dot)) (w', e') l).
Proof.
  intros HD H I Pz. destruct max_it as [|k]; [discriminate H|]. unfold cutting_plane_dc in H.
  destruct (dc_nan dot HD ltb tneq omega _ _ _ _ _ _ _ _ _ _ _ _ _ _ _ _ H (or_introl eq_refl)) as (A1 & A2 & A3).
  assert (N : nan_centre (e_n e) (w' (e_xc e))) by (apply A3; right; exists ev; auto).
  split; [exact N|]. intros l ->. destruct A1 as [A1|A1]; [discriminate A1|]. assert (l = e_xc e) by congruence. subst l. exact N.
Qed.
Print Assumptions C143_run_result_is_nan.

(** ** C144 *)
Theorem C144_nan_gradient dot w e g b k :
  fdot_any dot -> (k < e_n e)%nat -> g k = nan ->
  exists w' e', @ell_update b64 (FNumP dot) (w, e) (g, BScalar b) = Ok ((w', e'), (success, nan)) /\
    nan_centre (e_n e) (w' (e_xc e)) /\ forall i j, e_Q e' i j = nan.
Proof.
  intros HD Hk Hg. destruct (upd_om dot w e g b (om_nan_g dot HD e g k Hk Hg)) as (w' & e' & A & B & C & _). exists w', e'. auto.
Qed.
Print Assumptions C144_nan_gradient.

(** with one NaN gradient cutting_plane_dc can no longer stop: it runs to max_it and reports success *)
Theorem C144_dc_runs_to_limit dot {O T} (tneq : T -> T -> bool)
  (omega : O -> (nat -> b64) -> T -> res (O * (cut b64 * option T))) max_it tol o w e t tr o' st' xb t' info ev :
  fdot_any dot ->
  (forall o x t o' c t1, omega o x t = Ok (o', (c, t1)) -> exists b, snd c = BScalar b) ->
  cutting_plane_dc (@ell_space b64 (FNumP dot)) (fun x y : b64 => Bltb x y) tneq omega max_it tol o (w, e) t = Ok (tr, o', st', (xb, t', info)) ->
  In ev tr -> nan_cut (e_n e) (d_cut ev) ->
  cstatus info = success /\ num_iters info = max_it.
Proof.
  intros HD Hs H I Nc. destruct max_it as [|k]; [discriminate H|]. unfold cutting_plane_dc in H.
  exact (dc_nan_last dot HD tneq omega Hs _ _ _ _ _ _ _ _ _ _ _ _ _ _ _ _ H I Nc).
Qed.
Print Assumptions C144_dc_runs_to_limit.

(** cutting_plane_feas stops early only when the oracle accepts the all-NaN point *)
Theorem C144_feas_accepts_nan_or_limit dot {O} (omega : O -> (nat -> b64) -> res (O * option (cut b64)))
  max_it tol o w e tr o' w' e' info x c s ts :
  fdot_any dot ->
  (forall o x o' c, omega o x = Ok (o', Some c) -> exists b, snd c = BScalar b) ->
  cutting_plane_feas (@ell_space b64 (FNumP dot)) (fun x y : b64 => Bltb x y) omega max_it tol o (w, e) = Ok (tr, o', (w', e'), info) ->
  In (x, Some (c, s, ts)) tr -> nan_cut (e_n e) c ->
  cstatus info = success /\ (feasible info = true \/ num_iters info = max_it) /\ nan_centre (e_n e) (w' (e_xc e)).
Proof.
  intros HD Hs H I Nc. destruct max_it as [|k]; [discriminate H|]. unfold cutting_plane_feas in H.
  exact (feas_nan_last dot HD omega Hs _ _ _ _ _ _ _ _ _ _ _ _ _ _ _ H I Nc).
Qed.
Print Assumptions C144_feas_accepts_nan_or_limit.

(** mono_oracle accepts the all-NaN point *)
Theorem C144_mono_accepts_nan dot n (x : nat -> b64) : nan_centre n x -> @mono_oracle b64 (FNumP dot) n x = None.
Proof.
  unfold mono_oracle. intros N.
  assert (G : forall k i, (i + k < n)%nat -> @mono_loop b64 (FNumP dot) k i x = None).
  { induction k as [|k IH]; intros i Hi; [reflexivity|]. cbn [mono_loop]. rewrite (N (i + 1)%nat), (N i) by lia.
    change (@nltb b64 (FNumP dot) nzero (@nsub b64 (FNumP dot) nan nan)) with false. cbv iota. apply IH. lia. }
  destruct n as [|n]; [reflexivity|]. apply G. lia.
Qed.
Print Assumptions C144_mono_accepts_nan.

(** Minimising x0^2 + x1^2 from ell(1.0, [0, 0]): the first query is the minimiser, its gradient is zero.  The
    driver answers value 0.0, feasible, smallenough after one iteration, with the all-NaN array. *)
Definition quad_oracle (_ : unit) (x : nat -> b64) (t : b64) : res (unit * (cut b64 * option b64)) :=
  let f := fadd (fmul (x 0%nat) (x 0%nat)) (fmul (x 1%nat) (x 1%nat)) in
  let g := fun i => fmul (fmake 2 0) (x i) in
  if Bltb f t then Ok (tt, ((g, BScalar fzero), Some f)) else Ok (tt, ((g, BScalar (fsub f t)), None)).
Definition quad_run :=
  match @ell_init b64 (FNumP fdot_seq) (VScalar (fmake 1 0)) 2 0%nat with
  | Ok e => cutting_plane_dc (@ell_space b64 (FNumP fdot_seq)) (fun x y : b64 => Bltb x y) (fun x y => negb (feqb x y)) quad_oracle 2000 (fmake 1 (-20)) tt
              ((fun _ _ => fzero), e) (fmake 100 0)
  | Raise x => Raise x end.
Definition quad_info :=
  match quad_run with
  | Ok (tr, _, (w', _), (xb, t', info)) =>
      Some (length tr, map (fun ev => (B2SF (fst (d_cut ev) 0%nat), B2SF (fst (d_cut ev) 1%nat), match snd (d_cut ev) with BScalar b => B2SF b | BArr _ => S754_nan end)) tr,
            (xb, B2SF t', feasible info, num_iters info, cstatus info), map (fun l => (B2SF (w' l 0%nat), B2SF (w' l 1%nat))) (match xb with Some l => [l] | None => [] end))
  | Raise _ => None end.
Example C143_ex : quad_info =
  Some (1%nat, [(S754_zero false, S754_zero false, S754_zero false)], (Some 0%nat, S754_zero false, true, 1%nat, smallenough), [(S754_nan, S754_nan)]).
Proof. vm_compute. reflexivity. Qed.

(** an oracle that divides inf by inf at its first call: cutting_plane_feas accepts [NaN, NaN] with mono_oracle *)
Definition nan_oracle (first : bool) (x : nat -> b64) : res (bool * option (cut b64)) :=
  if first then Ok (false, Some ((fun i => if (i =? 0)%nat then fdiv (B754_infinity false) (B754_infinity false) else fmake 1 0), BScalar (fmake 1 (-1))))
  else Ok (false, match @mono_oracle b64 (FNumP fdot_seq) 2 x with Some (g, fj) => Some (g, BScalar fj) | None => None end).
Definition nan_info :=
  match @ell_init b64 (FNumP fdot_seq) (VScalar (fmake 1 0)) 2 0%nat with
  | Ok e =>
    match cutting_plane_feas (@ell_space b64 (FNumP fdot_seq)) (fun x y : b64 => Bltb x y) nan_oracle 2000 (fmake 1 (-20)) true ((fun _ _ => fzero), e) with
    | Ok (tr, _, (w', _), info) => Some (length tr, feasible info, num_iters info, cstatus info, (B2SF (w' 0%nat 0%nat), B2SF (w' 0%nat 1%nat)))
    | Raise _ => None end
  | Raise _ => None end.
Example C144_ex : nan_info = Some (2%nat, true, 2%nat, success, (S754_nan, S754_nan)).
Proof. vm_compute. reflexivity. Qed.
