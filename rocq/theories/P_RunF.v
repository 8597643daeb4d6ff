(** Where the events of a run of the drivers over ell in binary64 come from. *)
From Coq Require Import ZArith Reals Lra Lia Bool List Psatz Floats.SpecFloat.
From Flocq Require Import Core.Core IEEE754.BinarySingleNaN.
From Verif Require Import Base M_Drivers M_Ell S_Drivers S_Ell S_LinAlg M_Float S_Float S_EllF S_EllRun P_Drivers.
Import ListNotations.
Local Open Scope R_scope.

Lemma update_n64 dotf (st : memory b64 * ell b64) c st' a : @ell_update b64 (FNumD dotf) st c = Ok (st', a) -> e_n (snd st') = e_n (snd st).
Proof.
  destruct st as [w e]. intros U. unfold ell_update in U.
  repeat match type of U with
  | bind ?u _ = _ => destruct u as [?|?]; cbn [bind] in U; [|discriminate U]
  | (let '(_, _) := ?u in _) = _ => destruct u as [? ?]
  | (match ?u with _ => _ end) = _ => destruct u
  end; try discriminate U; inversion U; subst; try reflexivity; cbn [snd]; destruct (e_nodefer e); reflexivity.
Qed.

Section Feas.
Context {O : Type}.
Variables (dotf : nat -> (nat -> b64) -> (nat -> b64) -> b64) (omega : O -> (nat -> b64) -> res (O * option (@cut b64))) (I : O -> Prop).
Notation sp := (@ell_space b64 (FNumD dotf)).
Hypothesis keep : forall o x o' c, I o -> omega o x = Ok (o', c) -> I o'.
Lemma feas_events : forall tr o st o' st', feas_replay sp omega o st tr o' st' -> I o ->
  forall x c s q, In (x, Some (c, s, q)) tr ->
  exists st1 o1 o2, asked64 sp omega o st tr st1 c /\ e_n (snd st1) = e_n (snd st) /\ x = fst st1 (e_xc (snd st1)) /\ I o1 /\ omega o1 x = Ok (o2, Some c).
Proof.
  intros tr o st o' st' H. induction H as [o st|o st o1 E|o st c o1 st1 s q tr o' st' E U H IH]; intros HI x c0 s0 q0 Hin.
  - destruct Hin.
  - destruct Hin as [Hi|[]]. discriminate Hi.
  - destruct Hin as [Hi|Hi].
    + assert (x = centre sp st) by congruence. assert (c0 = c) by congruence. subst x c0.
      exists st, o, o1. split; [exists [], (centre sp st), s, q, tr, o; split; [reflexivity|constructor]|].
      split; [reflexivity|]. split; [destruct st; reflexivity|]. split; assumption.
    + destruct (IH (keep _ _ _ _ HI E) x c0 s0 q0 Hi) as (st2 & o2 & o3 & (tr1 & x1 & s1 & q1 & tr2 & o4 & Et & HR) & EN & Ex & I2 & E2).
      exists st2, o2, o3. split.
      { exists ((centre sp st, Some (c, s, q)) :: tr1), x1, s1, q1, tr2, o4. split; [cbn [app]; congruence|]. eapply FR_cut; eassumption. }
      split; [rewrite EN; exact (update_n64 dotf st c st1 (s, q) U)|]. auto.
Qed.
End Feas.

Section DC.
Context {O T : Type}.
Variables (dotf : nat -> (nat -> b64) -> (nat -> b64) -> b64) (omega : O -> (nat -> b64) -> T -> res (O * (@cut b64 * option T))).
Variables (I : O -> T -> Prop) (P : (nat -> b64) -> Prop) (R : T -> T -> Prop).
Notation sp := (@ell_space b64 (FNumD dotf)).
Hypothesis Rrefl : forall o t, I o t -> R t t.
Hypothesis Rtrans : forall a b c, R a b -> R b c -> R a c.
Hypothesis step : forall o x t o' c t1, I o t -> P x -> omega o x t = Ok (o', (c, t1)) -> I o' (best t t1) /\ R (best t t1) t.
Lemma dc_events : forall tr o st t o' st' t', dc_replay sp omega o st t tr o' st' t' -> I o t ->
  (forall st1 c, asked64_dc sp omega o st t tr st1 c -> P (fst st1 (e_xc (snd st1)))) ->
  (I o' t' /\ R t' t) /\
  forall ev, In ev tr -> exists st1 o1 o2 t0, asked64_dc sp omega o st t tr st1 (d_cut ev) /\ e_n (snd st1) = e_n (snd st) /\ d_x ev = fst st1 (e_xc (snd st1)) /\
    I o1 t0 /\ omega o1 (d_x ev) t0 = Ok (o2, (d_cut ev, d_t1 ev)) /\ R t' (best t0 (d_t1 ev)) /\ R t' t0.
Proof.
  intros tr o st t o' st' t' H. induction H as [o st t|o st t c t1 o1 st1 s q tr o' st' t' E U H IH]; intros HI HP.
  - split; [split; [exact HI|exact (Rrefl o t HI)]|]. intros ev [].
  - set (e0 := {| d_x := centre sp st; d_t := t; d_cut := c; d_t1 := t1; d_status := s; d_tsq := q |}) in *.
    assert (A0 : asked64_dc sp omega o st t (e0 :: tr) st c).
    { exists [], e0, tr, o, t. split; [reflexivity|]. split; [reflexivity|constructor]. }
    assert (EX : centre sp st = fst st (e_xc (snd st))) by (destruct st; reflexivity).
    assert (AT : forall s1 c0, asked64_dc sp omega o1 st1 (best t t1) tr s1 c0 -> asked64_dc sp omega o st t (e0 :: tr) s1 c0).
    { intros s1 c0 (u1 & ev & u2 & o2 & t2 & Et & Ec & Hr). exists (e0 :: u1), ev, u2, o2, t2.
      split; [cbn [app]; congruence|]. split; [exact Ec|]. unfold e0. eapply DR_cut; eassumption. }
    assert (PX := HP st c A0). rewrite <- EX in PX.
    destruct (step _ _ _ _ _ _ HI PX E) as [I1 R1].
    destruct (IH I1) as [[I2 R2] HE]; [intros s1 c0 A; exact (HP s1 c0 (AT s1 c0 A))|].
    split; [split; [exact I2|exact (Rtrans _ _ _ R2 R1)]|].
    intros ev [<-|Hi].
    + exists st, o, o1, t. split; [exact A0|]. split; [reflexivity|]. split; [exact EX|]. split; [exact HI|]. split; [exact E|].
      split; [exact R2|exact (Rtrans _ _ _ R2 R1)].
    + destruct (HE ev Hi) as (st2 & o2 & o3 & t0 & A & EN & Q1 & Q2 & Q3 & Q4 & Q5). exists st2, o2, o3, t0.
      split; [exact (AT _ _ A)|]. split; [rewrite EN; exact (update_n64 dotf st c st1 (s, q) U)|]. auto.
Qed.
End DC.
