(** Proofs about the drivers. *)
From Verif Require Import Base M_Drivers S_Drivers.

Lemma status_eqb_eq a b : status_eqb a b = true <-> a = b.
Proof. destruct a, b; cbn; split; intros H; congruence. Qed.
Lemma status_eqb_neq a b : status_eqb a b = false <-> a <> b.
Proof. destruct a, b; cbn; split; intros H; congruence. Qed.

Lemma app_one_cons {A} (a : A) l e : a :: (l ++ [e]) = (a :: l) ++ [e].
Proof. reflexivity. Qed.

(* ------------------------------------------------------------------ *)
Section Feas.
Context {St X V C Sc O : Type}.
Variable sp : space St X V C Sc.
Variable ltb : Sc -> Sc -> bool.
Variable omega : O -> V -> res (O * option C).
Notation event := (V * option (C * status * Sc))%type.

Lemma feas_loop_spec k : forall niter tol o st tr o' st' info,
  feas_loop sp ltb omega k niter tol o st = Ok (tr, o', st', info) ->
  feas_replay sp omega o st tr o' st' /\
  num_iters info = niter + length tr /\ length tr <= k /\
  (tr = [] -> k = 0 /\ feasible info = false /\ cstatus info = success) /\
  (tr <> [] -> exists tr0 e, tr = tr0 ++ [e] /\ Forall (fgo ltb tol) tr0 /\
                 ffinal ltb tol (length tr = k) info e /\
                 (feasible info = true -> e = (centre sp st', None))).
Proof.
  induction k as [|k IH]; intros niter tol o st tr o' st' info; cbn [feas_loop].
  - intros H; injection H as <- <- <- <-; cbn.
    split; [constructor|]. repeat split; auto; try lia; try easy.
  - intros H. apply bind_ok in H as ([o1 cut] & Ho & H).
    destruct cut as [c|].
    + apply bind_ok in H as ([st1 [s q]] & Hu & H).
      destruct (status_eqb s success) eqn:Es; cbn [negb] in H.
      * apply status_eqb_eq in Es; subst s.
        destruct (ltb q tol) eqn:Eq.
        -- injection H as <- <- <- <-; cbn.
           split; [eapply FR_cut; eauto; constructor|].
           repeat split; try lia; try easy.
           intros _. exists [], (centre sp st, Some (c, success, q)); cbn.
           repeat split; auto; congruence.
        -- apply bind_ok in H as ([[[tr1 o2] st2] info2] & Hl & H).
           injection H as <- <- <- <-.
           apply IH in Hl as (Hr & Hn & Hk & H0 & Hlast).
           split; [eapply FR_cut; eauto|].
           cbn [length]. split; [lia|]. split; [lia|]. split; [easy|].
           intros _. destruct tr1 as [|e1 tr1].
           ++ destruct (H0 eq_refl) as (-> & Hf & Hs).
              exists [], (centre sp st, Some (c, success, q)); cbn.
              split; [reflexivity|]. split; [constructor|]. split.
              ** repeat split; auto; congruence.
              ** congruence.
           ++ destruct Hlast as (tr0 & e & E & Hgo & Hfin & Hfe); [easy|].
              exists ((centre sp st, Some (c, success, q)) :: tr0), e.
              rewrite E; cbn [app]. split; [reflexivity|]. split.
              ** constructor; [|assumption]. red; eauto.
              ** split; [|assumption]. rewrite <- E.
                 destruct e as [x [[[c' s'] q']|]]; cbn in *; [|assumption].
                 intuition lia.
      * injection H as <- <- <- <-; cbn.
        apply status_eqb_neq in Es.
        split; [eapply FR_cut; eauto; constructor|].
        repeat split; try lia; try easy.
        intros _. exists [], (centre sp st, Some (c, s, q)); cbn.
        repeat split; auto; try congruence.
    + injection H as <- <- <- <-; cbn.
      split; [apply FR_stop; assumption|].
      repeat split; try lia; try easy.
      intros _. exists [], (centre sp st, None); cbn; repeat split; auto.
Qed.

Lemma feas_spec max_it tol o st tr o' st' info :
  cutting_plane_feas sp ltb omega max_it tol o st = Ok (tr, o', st', info) ->
  feas_replay sp omega o st tr o' st' /\
  num_iters info = length tr /\ 1 <= length tr <= max_it /\
  exists tr0 e, tr = tr0 ++ [e] /\ Forall (fgo ltb tol) tr0 /\
                ffinal ltb tol (length tr = max_it) info e /\
                (feasible info = true -> e = (centre sp st', None)).
Proof.
  unfold cutting_plane_feas. destruct max_it as [|k]; [discriminate|].
  intros H; apply feas_loop_spec in H as (Hr & Hn & Hk & H0 & Hl).
  assert (tr <> []) as Hne by (intros E; destruct (H0 E) as (Ez & _); discriminate Ez).
  split; [assumption|]. split; [lia|].
  split; [destruct tr; [easy|cbn in *; lia]|]. apply Hl; assumption.
Qed.

Lemma feas_feasible max_it tol o st tr o' st' info :
  cutting_plane_feas sp ltb omega max_it tol o st = Ok (tr, o', st', info) ->
  feas_replay sp omega o st tr o' st' /\
  (feasible info = true -> exists tr0, tr = tr0 ++ [(centre sp st', None)]) /\
  (feasible info = false -> forall x, ~ In (x, None) tr).
Proof.
  intros H; apply feas_spec in H as (Hr & _ & _ & tr0 & e & -> & Hgo & Hfin & Hfe).
  split; [assumption|]. split.
  - intros Hf. exists tr0. now rewrite (Hfe Hf).
  - intros Hf x Hin. apply in_app_or in Hin as [Hin|Hin].
    + rewrite Forall_forall in Hgo. destruct (Hgo _ Hin) as (? & ? & ? & E & _).
      discriminate E.
    + cbn in Hin. destruct Hin as [->|[]]. cbn in Hfin.
      destruct Hfin; congruence.
Qed.

Lemma feas_total max_it tol o st :
  (forall o x, exists r, omega o x = Ok r) ->
  (forall st c, exists r, sp_update sp st c = Ok r) ->
  max_it <> 0 ->
  exists r, cutting_plane_feas sp ltb omega max_it tol o st = Ok r.
Proof.
  intros Ho Hu Hm.
  assert (forall k niter o st, exists r, feas_loop sp ltb omega k niter tol o st = Ok r)
    as HL.
  { induction k as [|k IH]; intros niter o0 st0; cbn [feas_loop]; [eauto|].
    destruct (Ho o0 (centre sp st0)) as ([o1 [c|]] & ->); cbn [bind]; [|eauto].
    destruct (Hu st0 c) as ([st1 [s q]] & ->); cbn [bind].
    destruct (negb (status_eqb s success)); [eauto|].
    destruct (ltb q tol); [eauto|].
    destruct (IH (niter + 1) o1 st1) as ([[[tr o2] st2] info] & ->); cbn; eauto. }
  destruct max_it; [easy|]. apply HL.
Qed.

(** Soundness over a sound space and a valid oracle. *)
Section Sound.
Variable Wf : St -> Prop.
Variable Mem : St -> V -> Prop.
Variable sat : V -> C -> V -> Prop.
Variable OI : O -> Prop.
Variable K : V -> Prop.
Hypothesis Hsp : space_sound sp Wf Mem sat.
Hypothesis Hom : separates omega OI sat K.

Lemma feas_loop_sound k : forall niter tol o st tr o' st' info,
  Wf st -> OI o ->
  feas_loop sp ltb omega k niter tol o st = Ok (tr, o', st', info) ->
  Wf st' /\ OI o' /\
  (cstatus info = nosoln -> forall z, Mem st z -> ~ K z) /\
  (cstatus info <> nosoln -> forall z, Mem st z -> K z -> Mem st' z).
Proof.
  induction k as [|k IH]; intros niter tol o st tr o' st' info Hw Hoi;
    cbn [feas_loop].
  - intros H; injection H as <- <- <- <-; cbn. repeat split; auto; discriminate.
  - intros H. apply bind_ok in H as ([o1 cut] & Ho & H).
    destruct (Hom _ _ _ _ Hoi Ho) as [Hoi1 Hcut].
    destruct cut as [c|].
    + apply bind_ok in H as ([st1 [s q]] & Hu & H).
      destruct (Hsp _ _ _ _ _ Hw Hu) as [Hw1 Hs].
      destruct (status_eqb s success) eqn:Es; cbn [negb] in H.
      * apply status_eqb_eq in Es; subst s.
        destruct (ltb q tol).
        -- injection H as <- <- <- <-; cbn. repeat split; auto; discriminate.
        -- apply bind_ok in H as ([[[tr1 o2] st2] info2] & Hl & H).
           injection H as <- <- <- <-.
           apply IH in Hl as (Hw2 & Hoi2 & Hno & Hyes); auto.
           repeat split; auto.
           ++ intros E z Hz HK. apply (Hno E z); auto.
      * injection H as <- <- <- <-; cbn. apply status_eqb_neq in Es.
        repeat split; auto.
        -- intros ->; intros z Hz HK. apply (Hs z); auto.
        -- intros Hn z Hz HK. destruct s; try congruence; auto. contradiction.
    + injection H as <- <- <- <-; cbn. repeat split; auto; discriminate.
Qed.

Lemma feas_sound max_it tol o st tr o' st' info :
  Wf st -> OI o ->
  cutting_plane_feas sp ltb omega max_it tol o st = Ok (tr, o', st', info) ->
  Wf st' /\ OI o' /\
  (cstatus info = nosoln -> forall z, Mem st z -> ~ K z) /\
  (cstatus info <> nosoln -> forall z, Mem st z -> K z -> Mem st' z).
Proof.
  unfold cutting_plane_feas. destruct max_it; [discriminate|]. apply feas_loop_sound.
Qed.
End Sound.
End Feas.

(* ------------------------------------------------------------------ *)
Section DC.
Context {St X V C Sc O T : Type}.
Variable sp : space St X V C Sc.
Variable ltb : Sc -> Sc -> bool.
Variable tneq : T -> T -> bool.
Variable omega : O -> V -> T -> res (O * (C * option T)).
Notation event := (devent V C Sc T).

(** The reference bound to x_best: that of the last iteration with a t1. *)
Definition xb_after (xb : option X) (x : X) (t1 : option T) : option X :=
  match t1 with Some _ => Some x | None => xb end.

Lemma dc_loop_spec k : forall niter tol t0 o st t xb tr o' st' xb' t' info,
  dc_loop sp ltb tneq omega k niter tol t0 o st t xb = Ok (tr, o', st', (xb', t', info)) ->
  dc_replay sp omega o st t tr o' st' t' /\
  feasible info = tneq t' t0 /\
  num_iters info = niter + length tr /\ length tr <= k /\
  (tr = [] -> k = 0 /\ cstatus info = success) /\
  (tr <> [] -> exists tr0 e, tr = tr0 ++ [e] /\ Forall (dgo ltb tol) tr0 /\
                 dfinal ltb tol (length tr = k) (cstatus info) e) /\
  ((Forall no_t1 tr /\ t' = t /\ xb' = xb) \/
   (exists tr1 e tr2 stm, tr = tr1 ++ e :: tr2 /\ Forall no_t1 tr2 /\
        d_t1 e = Some t' /\ xb' = Some (sp_xc sp stm) /\ d_x e = centre sp stm)).
Proof.
  induction k as [|k IH]; intros niter tol t0 o st t xb tr o' st' xb' t' info;
    cbn [dc_loop].
  - intros H; injection H as <- <- <- <- <- <-; cbn.
    split; [constructor|]. repeat split; auto; try lia; try easy.
  - intros H. apply bind_ok in H as ([o1 [c t1]] & Ho & H).
    apply bind_ok in H as ([st1 [s q]] & Hu & H).
    set (ev := {| d_x := centre sp st; d_t := t; d_cut := c; d_t1 := t1;
                  d_status := s; d_tsq := q |}) in *.
    assert (Hxb : (Forall no_t1 [ev] /\ best t t1 = t /\ xb_after xb (sp_xc sp st) t1 = xb) \/
      (exists tr1 e tr2 stm, [ev] = tr1 ++ e :: tr2 /\ Forall no_t1 tr2 /\
        d_t1 e = Some (best t t1) /\
        xb_after xb (sp_xc sp st) t1 = Some (sp_xc sp stm) /\ d_x e = centre sp stm)).
    { destruct t1 as [t1|]; cbn.
      - right. exists [], ev, [], st. repeat split; auto.
      - left. repeat split; auto. constructor; [reflexivity|constructor]. }
    destruct (status_eqb s success) eqn:Es; cbn [negb] in H.
    + apply status_eqb_eq in Es; subst s.
      destruct (ltb q tol) eqn:Eq.
      * injection H as <- <- <- <- <- <-; cbn.
        split; [eapply DR_cut; eauto; constructor|].
        repeat split; try lia; try easy.
        intros _. exists [], ev.
        split; [reflexivity|]. split; [constructor|].
        subst ev; repeat split; cbn in *; congruence.
      * apply bind_ok in H as ([[[tr1 o2] st2] [[xb2 t2] info2]] & Hl & H).
        injection H as <- <- <- <- <- <-.
        apply IH in Hl as (Hr & Hf & Hn & Hk & H0 & Hlast & Hx).
        split; [eapply DR_cut; eauto|]. split; [assumption|].
        cbn [length]. split; [lia|]. split; [lia|]. split; [easy|]. split.
        -- intros _. destruct tr1 as [|e1 tr1].
           ++ destruct (H0 eq_refl) as (-> & Hs).
              exists [], ev.
              split; [reflexivity|]. split; [constructor|].
              subst ev; repeat split; cbn in *; congruence.
           ++ destruct Hlast as (tr0 & e & E & Hgo & Hfin); [easy|].
              exists (ev :: tr0), e. rewrite E; cbn [app].
              split; [reflexivity|]. split; [constructor; [split; auto|assumption]|].
              destruct Hfin as (F1 & F2 & F3). repeat split; auto; intros.
              ** now apply F3.
              ** rewrite <- E. f_equal. apply F3; auto.
        -- destruct Hx as [(Hnone & -> & ->) | (tra & e & trb & stm & -> & Hb & He & -> & Hd)].
           ++ destruct Hxb as [(A1 & A2 & A3) | (tra & e & trb & stm & E & Hb & He & E2 & Hd)].
              ** left. repeat split; auto. constructor; auto. inversion A1; auto.
              ** right. exists tra, e, (trb ++ tr1), stm.
                 repeat split; auto.
                 --- change (ev :: tr1) with ([ev] ++ tr1). rewrite E.
                     rewrite <- app_assoc. reflexivity.
                 --- apply Forall_app; auto.
           ++ right. exists (ev :: tra), e, trb, stm. repeat split; auto.
    + injection H as <- <- <- <- <- <-; cbn. apply status_eqb_neq in Es.
      split; [eapply DR_cut; eauto; constructor|].
      repeat split; try lia; try easy.
      intros _. exists [], ev.
        split; [reflexivity|]. split; [constructor|].
        subst ev; repeat split; cbn in *; congruence.
Qed.

Lemma dc_spec max_it tol o st t tr o' st' xb' t' info :
  cutting_plane_dc sp ltb tneq omega max_it tol o st t = Ok (tr, o', st', (xb', t', info)) ->
  dc_replay sp omega o st t tr o' st' t' /\
  feasible info = tneq t' t /\
  num_iters info = length tr /\ 1 <= length tr <= max_it /\
  (exists tr0 e, tr = tr0 ++ [e] /\ Forall (dgo ltb tol) tr0 /\
                 dfinal ltb tol (length tr = max_it) (cstatus info) e) /\
  ((Forall no_t1 tr /\ t' = t /\ xb' = None) \/
   (exists tr1 e tr2 stm, tr = tr1 ++ e :: tr2 /\ Forall no_t1 tr2 /\
        d_t1 e = Some t' /\ xb' = Some (sp_xc sp stm) /\ d_x e = centre sp stm)).
Proof.
  unfold cutting_plane_dc. destruct max_it as [|k]; [discriminate|].
  intros H; apply dc_loop_spec in H as (Hr & Hf & Hn & Hk & H0 & Hl & Hx).
  assert (tr <> []) as Hne by (intros E; destruct (H0 E) as (Ez & _); discriminate Ez).
  split; [assumption|]. split; [assumption|]. split; [lia|].
  split; [destruct tr; [easy|cbn in *; lia]|]. split; [apply Hl; assumption|assumption].
Qed.

Lemma dc_total max_it tol o st t :
  (forall o x t, exists r, omega o x t = Ok r) ->
  (forall st c, exists r, sp_update sp st c = Ok r) ->
  max_it <> 0 ->
  exists r, cutting_plane_dc sp ltb tneq omega max_it tol o st t = Ok r.
Proof.
  intros Ho Hu Hm.
  assert (forall k niter t0 o st t xb,
             exists r, dc_loop sp ltb tneq omega k niter tol t0 o st t xb = Ok r) as HL.
  { induction k as [|k IH]; intros niter t0 o0 st0 t1 xb; cbn [dc_loop]; [eauto|].
    destruct (Ho o0 (centre sp st0) t1) as ([o1 [c t2]] & ->); cbn [bind].
    destruct (Hu st0 c) as ([st1 [s q]] & ->); cbn [bind].
    destruct (negb (status_eqb s success)); [eauto|].
    destruct (ltb q tol); [eauto|].
    edestruct IH as ([[[tr o2] st2] info] & ->); cbn; eauto. }
  destruct max_it; [easy|]. apply HL.
Qed.

Section Order.
Variable le : T -> T -> Prop.
Hypothesis le_refl : forall a, le a a.
Hypothesis le_trans : forall a b c, le a b -> le b c -> le a c.
Hypothesis Him : forall o x t o' c t1, omega o x t = Ok (o', (c, Some t1)) -> le t1 t.

Lemma dc_replay_mono o st t tr o' st' t' :
  dc_replay sp omega o st t tr o' st' t' ->
  le t' t /\ (forall e t1, In e tr -> d_t1 e = Some t1 -> le t' t1).
Proof.
  induction 1 as [|o st t c t1 o1 st1 s q tr o' st' t' Ho Hu Hr [IH1 IH2]].
  - split; [apply le_refl|]. intros e t1 [].
  - assert (le (best t t1) t) as Hb
      by (destruct t1 as [t1|]; cbn; [eapply Him; eauto|apply le_refl]).
    split; [eapply le_trans; eauto|].
    intros e t2 [<-|Hin] E; cbn in E; [|eapply IH2; eauto].
    subst t1; exact IH1.
Qed.
End Order.

Section Sound.
Variable Wf : St -> Prop.
Variable Mem : St -> V -> Prop.
Variable sat : V -> C -> V -> Prop.
Variable OI : O -> Prop.
Variable better : T -> V -> Prop.
Hypothesis Hsp : space_sound sp Wf Mem sat.
Hypothesis Hom : optimizes omega OI sat better.

Lemma dc_loop_sound k : forall niter tol t0 o st t xb tr o' st' xb' t' info,
  Wf st -> OI o ->
  dc_loop sp ltb tneq omega k niter tol t0 o st t xb = Ok (tr, o', st', (xb', t', info)) ->
  Wf st' /\ OI o' /\
  (forall z, better t' z -> better t z) /\
  (cstatus info = nosoln -> forall z, Mem st z -> ~ better t' z) /\
  (cstatus info <> nosoln -> forall z, Mem st z -> better t' z -> Mem st' z).
Proof.
  induction k as [|k IH]; intros niter tol t0 o st t xb tr o' st' xb' t' info Hw Hoi;
    cbn [dc_loop].
  - intros H; injection H as <- <- <- <- <- <-; cbn. repeat split; auto; discriminate.
  - intros H. apply bind_ok in H as ([o1 [c t1]] & Ho & H).
    destruct (Hom _ _ _ _ _ _ Hoi Ho) as (Hoi1 & Hcut & Himp).
    apply bind_ok in H as ([st1 [s q]] & Hu & H).
    destruct (Hsp _ _ _ _ _ Hw Hu) as [Hw1 Hs].
    destruct (status_eqb s success) eqn:Es; cbn [negb] in H.
    + apply status_eqb_eq in Es; subst s.
      destruct (ltb q tol).
      * injection H as <- <- <- <- <- <-; cbn.
        repeat split; auto; discriminate.
      * apply bind_ok in H as ([[[tr1 o2] st2] [[xb2 t2] info2]] & Hl & H).
        injection H as <- <- <- <- <- <-.
        apply IH in Hl as (Hw2 & Hoi2 & Hb & Hno & Hyes); auto.
        repeat split; auto.
        -- intros E z Hz HB. apply (Hno E z); auto.
    + injection H as <- <- <- <- <- <-; cbn. apply status_eqb_neq in Es.
      repeat split; auto.
      * intros ->; intros z Hz HB. apply (Hs z); auto.
      * intros Hn z Hz HB. destruct s; try congruence; auto. contradiction.
Qed.

Lemma dc_sound max_it tol o st t tr o' st' xb' t' info :
  Wf st -> OI o ->
  cutting_plane_dc sp ltb tneq omega max_it tol o st t = Ok (tr, o', st', (xb', t', info)) ->
  Wf st' /\ OI o' /\
  (cstatus info = nosoln -> forall z, Mem st z -> ~ better t' z) /\
  (cstatus info <> nosoln -> forall z, Mem st z -> better t' z -> Mem st' z).
Proof.
  unfold cutting_plane_dc. destruct max_it; [discriminate|]. intros Hw Ho H.
  apply dc_loop_sound in H as (? & ? & ? & ? & ?); auto.
Qed.
End Sound.
End DC.

(* ------------------------------------------------------------------ *)
Section Q.
Context {St X V C Sc O T : Type}.
Variable sp : space St X V C Sc.
Variable ltb : Sc -> Sc -> bool.
Variable tneq : T -> T -> bool.
Variable omega : O -> V -> T -> bool -> res (O * (C * V * option T * bool)).
Notation event := (qevent V C Sc T).

Lemma q_loop_spec k : forall niter tol t0 o st t xb s0 tr o' st' xb' t' info,
  q_loop sp ltb tneq omega k niter tol t0 o st t xb s0 = Ok (tr, o', st', (xb', t', info)) ->
  q_replay sp omega o st t tr o' st' t' /\
  feasible info = tneq t' t0 /\
  num_iters info = niter + length tr /\ length tr <= k /\
  retries s0 tr /\
  (tr = [] -> k = 0 /\ cstatus info = s0) /\
  (tr <> [] -> exists tr0 e, tr = tr0 ++ [e] /\ Forall (qgo ltb tol) tr0 /\
                 qfinal ltb tol (length tr = k) (cstatus info) e) /\
  ((Forall qno_t1 tr /\ t' = t /\ xb' = xb) \/
   (exists tr1 e tr2, tr = tr1 ++ e :: tr2 /\ Forall qno_t1 tr2 /\
        q_t1 e = Some t' /\ xb' = Some (q_x0 e))).
Proof.
  induction k as [|k IH]; intros niter tol t0 o st t xb s0 tr o' st' xb' t' info;
    cbn [q_loop].
  - intros H; injection H as <- <- <- <- <- <-; cbn.
    split; [constructor|]. repeat split; auto; try lia; try easy.
  - intros H. apply bind_ok in H as ([o1 [[[c x0] t1] more]] & Ho & H).
    apply bind_ok in H as ([st1 [s q]] & Hu & H).
    set (ev := {| q_x := centre sp st; q_t := t; q_retry := status_eqb s0 noeffect;
                  q_cut := c; q_x0 := x0; q_t1 := t1; q_more := more;
                  q_status := s; q_tsq := q |}) in *.
    assert (Hret : q_retry ev = true <-> s0 = noeffect) by apply status_eqb_eq.
    assert (Hxb : (Forall qno_t1 [ev] /\ best t t1 = t /\ xb_after xb x0 t1 = xb) \/
      (exists tr1 e tr2, [ev] = tr1 ++ e :: tr2 /\ Forall qno_t1 tr2 /\
        q_t1 e = Some (best t t1) /\ xb_after xb x0 t1 = Some (q_x0 e))).
    { destruct t1 as [t1|]; cbn.
      - right. exists [], ev, []. repeat split; auto.
      - left. repeat split; auto. constructor; [reflexivity|constructor]. }
    destruct (status_eqb s noeffect && negb more) eqn:E1.
    { apply andb_prop in E1 as [E1 E2]. apply status_eqb_eq in E1; subst s.
      apply negb_true_iff in E2; subst more.
      injection H as <- <- <- <- <- <-; cbn.
      split; [eapply QR_cut; eauto; constructor|].
      split; [reflexivity|]. split; [lia|]. split; [lia|].
      split; [split; [exact Hret|exact I]|]. split; [easy|]. split; [|exact Hxb].
      intros _. exists [], ev. split; [reflexivity|]. split; [constructor|].
      repeat split; cbn; try congruence; intros.
      all: exfalso; specialize (H0 eq_refl); discriminate. }
    assert (Hnm : s = noeffect -> more = true).
    { intros ->. cbn in E1. destruct more; [reflexivity|discriminate]. }
    destruct (status_eqb s nosoln) eqn:E2.
    { apply status_eqb_eq in E2; subst s.
      injection H as <- <- <- <- <- <-; cbn.
      split; [eapply QR_cut; eauto; constructor|].
      split; [reflexivity|]. split; [lia|]. split; [lia|].
      split; [split; [exact Hret|exact I]|]. split; [easy|]. split; [|exact Hxb].
      intros _. exists [], ev. split; [reflexivity|]. split; [constructor|].
      subst ev; repeat split; cbn in *; congruence. }
    apply status_eqb_neq in E2.
    destruct (ltb q tol) eqn:Eq.
    { injection H as <- <- <- <- <- <-; cbn.
      split; [eapply QR_cut; eauto; constructor|].
      split; [reflexivity|]. split; [lia|]. split; [lia|].
      split; [split; [exact Hret|exact I]|]. split; [easy|]. split; [|exact Hxb].
      intros _. exists [], ev. split; [reflexivity|]. split; [constructor|].
      split; [|split]; cbn; intros; try congruence.
      - exfalso. rewrite Hnm in *; auto; discriminate.
      - split; intros; congruence. }
    apply bind_ok in H as ([[[tr1 o2] st2] [[xb2 t2] info2]] & Hl & H).
    injection H as <- <- <- <- <- <-.
    apply IH in Hl as (Hr & Hf & Hn & Hk & Hret2 & H0 & Hlast & Hx).
    split; [eapply QR_cut; eauto|]. split; [assumption|].
    cbn [length]. split; [lia|]. split; [lia|].
    split; [split; [exact Hret|exact Hret2]|]. split; [easy|]. split.
    + intros _. destruct tr1 as [|e1 tr1].
      * destruct (H0 eq_refl) as (-> & Hs).
        exists [], ev. split; [reflexivity|]. split; [constructor|].
        split; [|split]; cbn; intros; try congruence.
        split; intros; [congruence|]. split; congruence.
      * destruct Hlast as (tr0 & e & E & Hgo & Hfin); [easy|].
        exists (ev :: tr0), e. rewrite E; cbn [app].
        split; [reflexivity|].
        split; [constructor; [repeat split; auto|assumption]|].
        destruct Hfin as (F1 & F2 & F3).
        split; [exact F1|]. split; [exact F2|].
        intros Ha Hb. destruct (F3 Ha Hb) as [G1 G2]. split; [exact G1|].
        intros Hc. destruct (G2 Hc) as [G3 G4]. split; [exact G3|].
        cbn [length]. rewrite <- E. f_equal. exact G4.
    + destruct Hx as [(Hnone & -> & ->) | (tra & e & trb & -> & Hb & He & ->)].
      * destruct Hxb as [(A1 & A2 & A3) | (tra & e & trb & E & Hb & He & E3)].
        -- left. repeat split; auto. constructor; auto. inversion A1; auto.
        -- right. exists tra, e, (trb ++ tr1). repeat split; auto.
           ++ change (ev :: tr1) with ([ev] ++ tr1). rewrite E.
              rewrite <- app_assoc. reflexivity.
           ++ apply Forall_app; auto.
      * right. exists (ev :: tra), e, trb. repeat split; auto.
Qed.

Lemma q_spec max_it tol o st t tr o' st' xb' t' info :
  cutting_plane_q sp ltb tneq omega max_it tol o st t = Ok (tr, o', st', (xb', t', info)) ->
  q_replay sp omega o st t tr o' st' t' /\
  feasible info = tneq t' t /\
  num_iters info = length tr /\ 1 <= length tr <= max_it /\
  retries nosoln tr /\
  (exists tr0 e, tr = tr0 ++ [e] /\ Forall (qgo ltb tol) tr0 /\
                 qfinal ltb tol (length tr = max_it) (cstatus info) e) /\
  ((Forall qno_t1 tr /\ t' = t /\ xb' = None) \/
   (exists tr1 e tr2, tr = tr1 ++ e :: tr2 /\ Forall qno_t1 tr2 /\
        q_t1 e = Some t' /\ xb' = Some (q_x0 e))).
Proof.
  unfold cutting_plane_q. destruct max_it as [|k]; [discriminate|].
  intros H; apply q_loop_spec in H as (Hr & Hf & Hn & Hk & Hret & H0 & Hl & Hx).
  assert (tr <> []) as Hne by (intros E; destruct (H0 E) as (Ez & _); discriminate Ez).
  split; [assumption|]. split; [assumption|]. split; [lia|].
  split; [destruct tr; [easy|cbn in *; lia]|].
  split; [assumption|]. split; [apply Hl; assumption|assumption].
Qed.

Lemma retries_pairs (tr : list (qevent V C Sc T)) : forall s tr1 e e' tr2,
  retries s tr -> tr = tr1 ++ e :: e' :: tr2 ->
  (q_retry e' = true <-> q_status e = noeffect).
Proof.
  induction tr as [|a tr IH]; intros s tr1 e e' tr2 Hr E.
  - destruct tr1; discriminate.
  - destruct Hr as [_ Hr]. destruct tr1 as [|b tr1]; cbn in E; injection E as -> E.
    + subst tr. cbn in Hr. apply Hr.
    + eapply IH; eauto.
Qed.

Lemma q_replay_same_centre o st t tr o' st' t' :
  (forall st c st1 q, sp_update sp st c = Ok (st1, (noeffect, q)) ->
                      centre sp st1 = centre sp st) ->
  q_replay sp omega o st t tr o' st' t' ->
  forall tr1 e e' tr2, tr = tr1 ++ e :: e' :: tr2 ->
    q_status e = noeffect -> q_x e' = q_x e.
Proof.
  intros Hne.
  induction 1 as [|o st t retry c x0 t1 more o1 st1 s q tr o' st' t' Ho Hu Hr IH];
    intros tr1 e e' tr2 E Hs.
  - destruct tr1; discriminate.
  - destruct tr1 as [|b tr1]; cbn in E; injection E as <- E.
    + cbn in Hs |- *. subst s tr. inversion Hr; subst; cbn. eapply Hne; eauto.
    + eapply IH; eauto.
Qed.

Lemma q_total max_it tol o st t :
  (forall o x t b, exists r, omega o x t b = Ok r) ->
  (forall st c, exists r, sp_update sp st c = Ok r) ->
  max_it <> 0 ->
  exists r, cutting_plane_q sp ltb tneq omega max_it tol o st t = Ok r.
Proof.
  intros Ho Hu Hm.
  assert (forall k niter t0 o st t xb s,
             exists r, q_loop sp ltb tneq omega k niter tol t0 o st t xb s = Ok r) as HL.
  { induction k as [|k IH]; intros niter t0 o0 st0 t1 xb s0; cbn [q_loop]; [eauto|].
    destruct (Ho o0 (centre sp st0) t1 (status_eqb s0 noeffect))
      as ([o1 [[[c x0] t2] more]] & ->); cbn [bind].
    destruct (Hu st0 c) as ([st1 [s q]] & ->); cbn [bind].
    destruct (status_eqb s noeffect && negb more); [eauto|].
    destruct (status_eqb s nosoln); [eauto|].
    destruct (ltb q tol); [eauto|].
    edestruct IH as ([[[tr o2] st2] info] & ->); cbn; eauto. }
  destruct max_it; [easy|]. apply HL.
Qed.

Section Order.
Variable le : T -> T -> Prop.
Hypothesis le_refl : forall a, le a a.
Hypothesis le_trans : forall a b c, le a b -> le b c -> le a c.
Hypothesis Him : forall o x t b o' c x0 t1 m,
    omega o x t b = Ok (o', (c, x0, Some t1, m)) -> le t1 t.

Lemma q_replay_mono o st t tr o' st' t' :
  q_replay sp omega o st t tr o' st' t' ->
  le t' t /\ (forall e t1, In e tr -> q_t1 e = Some t1 -> le t' t1).
Proof.
  induction 1 as [|o st t b c x0 t1 more o1 st1 s q tr o' st' t' Ho Hu Hr [IH1 IH2]].
  - split; [apply le_refl|]. intros e t1 [].
  - assert (le (best t t1) t) as Hb
      by (destruct t1 as [t1|]; cbn; [eapply Him; eauto|apply le_refl]).
    split; [eapply le_trans; eauto|].
    intros e t2 [<-|Hin] E; cbn in E; [|eapply IH2; eauto].
    subst t1; exact IH1.
Qed.
End Order.

Section Sound.
Variable Wf : St -> Prop.
Variable Mem : St -> V -> Prop.
Variable sat : V -> C -> V -> Prop.
Variable OI : O -> Prop.
Variable better : T -> V -> Prop.
Hypothesis Hsp : space_sound sp Wf Mem sat.
Hypothesis Hom : optimizes_q omega OI sat better.

Lemma q_loop_sound k : forall niter tol t0 o st t xb s0 tr o' st' xb' t' info,
  Wf st -> OI o -> k <> 0 ->
  q_loop sp ltb tneq omega k niter tol t0 o st t xb s0 = Ok (tr, o', st', (xb', t', info)) ->
  Wf st' /\ OI o' /\
  (forall z, better t' z -> better t z) /\
  (cstatus info = nosoln -> forall z, Mem st z -> ~ better t' z) /\
  (cstatus info <> nosoln -> forall z, Mem st z -> better t' z -> Mem st' z).
Proof.
  induction k as [|k IH]; intros niter tol t0 o st t xb s0 tr o' st' xb' t' info Hw Hoi Hk;
    cbn [q_loop]; [easy|].
  intros H. apply bind_ok in H as ([o1 [[[c x0] t1] more]] & Ho & H).
  destruct (Hom _ _ _ _ _ _ _ _ _ Hoi Ho) as (Hoi1 & Hcut & Himp).
  apply bind_ok in H as ([st1 [s q]] & Hu & H).
  destruct (Hsp _ _ _ _ _ Hw Hu) as [Hw1 Hs].
  destruct (status_eqb s noeffect && negb more) eqn:E1.
  { apply andb_prop in E1 as [E1 _]. apply status_eqb_eq in E1; subst s.
    injection H as <- <- <- <- <- <-; cbn. repeat split; auto; discriminate. }
  destruct (status_eqb s nosoln) eqn:E2.
  { apply status_eqb_eq in E2; subst s.
    injection H as <- <- <- <- <- <-; cbn. repeat split; auto; try congruence.
    intros _ z Hz HB. apply (Hs z); auto. }
  apply status_eqb_neq in E2.
  assert (Hkeep : forall z, Mem st z -> better (best t t1) z -> Mem st1 z).
  { intros z Hz HB. destruct s; try congruence; auto. contradiction. }
  destruct (ltb q tol) eqn:Eq.
  { injection H as <- <- <- <- <- <-; cbn. repeat split; auto; discriminate. }
  apply bind_ok in H as ([[[tr1 o2] st2] [[xb2 t2] info2]] & Hl & H).
  injection H as <- <- <- <- <- <-.
  destruct k as [|k].
  { cbn in Hl. injection Hl as <- <- <- <- <- <-; cbn.
    repeat split; auto; congruence. }
  apply IH in Hl as (Hw2 & Hoi2 & Hb & Hno & Hyes); auto.
  repeat split; auto.
  - intros E z Hz HB. apply (Hno E z); auto.
Qed.

Lemma q_sound max_it tol o st t tr o' st' xb' t' info :
  Wf st -> OI o ->
  cutting_plane_q sp ltb tneq omega max_it tol o st t = Ok (tr, o', st', (xb', t', info)) ->
  Wf st' /\ OI o' /\
  (cstatus info = nosoln -> forall z, Mem st z -> ~ better t' z) /\
  (cstatus info <> nosoln -> forall z, Mem st z -> better t' z -> Mem st' z).
Proof.
  unfold cutting_plane_q. destruct max_it as [|k]; [discriminate|]. intros Hw Ho H.
  apply q_loop_sound in H as (? & ? & ? & ? & ?); auto.
Qed.
End Sound.
End Q.
