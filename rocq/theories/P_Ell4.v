(** Drivers over ell: replay facts, reachable objects, smallenough. *)
From Coq Require Import Reals Lra Psatz.
From Verif Require Import Base M_Drivers M_Ell S_LinAlg P_LinAlg S_Drivers S_Ell
  P_Drivers P_EllCalc P_Ell P_Ell2 P_Ell3.

Section Replay.
Context {St X V C Sc O T : Type}.
Variable sp : space St X V C Sc.

Lemma feas_replay_app (omega : O -> V -> res (O * option C)) tr0 : forall o st tr1 o' st',
  feas_replay sp omega o st (tr0 ++ tr1) o' st' -> (forall x, ~ In (x, None) tr0) ->
  exists o1 st1, feas_replay sp omega o st tr0 o1 st1 /\ feas_replay sp omega o1 st1 tr1 o' st'.
Proof.
  induction tr0 as [|e tr0 IH]; intros o st tr1 o' st' H Hn.
  - exists o, st. split; [constructor|assumption].
  - cbn in H. inversion H; subst.
    + exfalso. eapply Hn. left; reflexivity.
    + match goal with H : feas_replay _ _ _ _ (tr0 ++ tr1) _ _ |- _ => apply IH in H as (o2 & st2 & HA & HB) end.
      * exists o2, st2. split; [econstructor; eauto|assumption].
      * intros x Hx. apply (Hn x). right; assumption.
Qed.

Lemma dc_replay_app (omega : O -> V -> T -> res (O * (C * option T))) tr0 : forall o st t tr1 o' st' t',
  dc_replay sp omega o st t (tr0 ++ tr1) o' st' t' ->
  exists o1 st1 t1, dc_replay sp omega o st t tr0 o1 st1 t1 /\
                    dc_replay sp omega o1 st1 t1 tr1 o' st' t'.
Proof.
  induction tr0 as [|e tr0 IH]; intros o st t tr1 o' st' t' H.
  - exists o, st, t. split; [constructor|assumption].
  - cbn in H. inversion H; subst.
    match goal with H : dc_replay _ _ _ _ _ (tr0 ++ tr1) _ _ _ |- _ =>
      apply IH in H as (o2 & st2 & t2 & HA & HB) end.
    exists o2, st2, t2. split; [econstructor; eauto|assumption].
Qed.

Variable Wf : St -> Prop.
Hypothesis Hwf : forall st c st' a, Wf st -> sp_update sp st c = Ok (st', a) -> Wf st'.

Lemma feas_replay_wf (omega : O -> V -> res (O * option C)) o st tr o' st' :
  feas_replay sp omega o st tr o' st' -> Wf st -> Wf st'.
Proof. induction 1; eauto. Qed.
Lemma dc_replay_wf (omega : O -> V -> T -> res (O * (C * option T))) o st t tr o' st' t' :
  dc_replay sp omega o st t tr o' st' t' -> Wf st -> Wf st'.
Proof. induction 1; eauto. Qed.
End Replay.

Local Open Scope R_scope.

Lemma ell_update_wf st c st' a : st_wf st -> ell_update st c = Ok (st', a) -> st_wf st'.
Proof.
  intros Hw H. destruct a as [s q].
  apply (ell_space_sound (e_n (snd st)) st c st' s q); [split; auto|exact H].
Qed.
Lemma ell_update_n st c st' a : ell_update st c = Ok (st', a) -> e_n (snd (st' : memory R * ell R)) = e_n (snd st).
Proof.
  destruct st as [w e], c as [g b], st' as [w' e'], a as [s q]. intros H.
  apply ell_update_frame in H. cbn. tauto.
Qed.

Lemma ell_run_wf cs : forall st st' l, st_wf st -> ell_run st cs = Ok (st', l) -> st_wf st'.
Proof.
  induction cs as [|c cs IH]; intros st st' l Hw H; cbn [ell_run] in H.
  - injection H as <- <-. assumption.
  - apply bind_ok in H as ([st1 a] & Hu & H). apply bind_ok in H as ([st2 l2] & Hr & H).
    injection H as <- <-. eapply IH; [|exact Hr]. eapply ell_update_wf; eauto.
Qed.

(** along the last cut direction the whole set is within sqrt(tsq) *)
Lemma ell_update_width w e g beta w' e' s q :
  ell_wf e -> ell_update (w, e) (g, beta) = Ok ((w', e'), (s, q)) ->
  forall z, mem_ell (w, e) z ->
    let a := dot (e_n e) g (fun i => z i - w (e_xc e) i) in a * a <= q.
Proof.
  intros Hw H z Hz. apply ell_update_spec in H as (-> & _); [|assumption].
  destruct Hw as (_ & _ & Hs & Hp & _). apply in_ell_range; assumption.
Qed.

Lemma smallenough_improvement n g x q tol (Mem : (nat -> R) -> Prop) (f : (nat -> R) -> R) :
  q < tol ->
  (forall z, Mem z -> let a := dot n g (fun i => z i - x i) in a * a <= q) ->
  (forall z, f x + dot n g (fun i => z i - x i) <= f z) ->
  forall z, Mem z -> f x - sqrt tol < f z.
Proof.
  intros Hq Hm Hf z Hz. specialize (Hm z Hz). specialize (Hf z). cbn zeta in Hm.
  set (a := dot n g (fun i => z i - x i)) in *.
  assert (- sqrt tol < a); [|lra].
  assert (0 <= a * a) by apply Rle_0_sqr. assert (0 < tol) by lra.
  destruct (Rle_dec 0 a); [pose proof (sqrt_lt_R0 tol); lra|].
  assert (- a < sqrt tol); [|lra].
  rewrite <- (sqrt_square (- a)) by lra. apply sqrt_lt_1; nra.
Qed.
