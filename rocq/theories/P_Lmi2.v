(** lmi_old, lsq and end to end facts. *)
From Coq Require Import Reals Lra Psatz.
From Verif Require Import Base M_Drivers M_Chol M_Ell M_Lmi S_Drivers S_LinAlg P_LinAlg S_Lmi S_Ell
  P_Drivers P_Chol P_Chol2 P_Lmi.
Local Open Scope R_scope.

Lemma replay_last_none {St X V C Sc O} (sp : space St X V C Sc) (omega : O -> V -> res (O * option C))
    (OI : O -> Prop) : (forall o x o' a, OI o -> omega o x = Ok (o', a) -> OI o') ->
  forall tr0 o st x o' st', OI o -> feas_replay sp omega o st (tr0 ++ [(x, None)]) o' st' ->
  exists o1, OI o1 /\ omega o1 x = Ok (o', None) /\ x = centre sp st'.
Proof.
  intros HI. induction tr0 as [|ev tr0 IH]; intros o st x o' st' Ho H; cbn in H.
  - inversion H; subst. eauto.
  - inversion H; subst.
    + destruct tr0; discriminate.
    + eapply IH; [|eassumption]. eapply HI; eassumption.
Qed.

Section DcInv.
Context {St X V C Sc O T : Type}.
Variables (sp : space St X V C Sc) (omega : O -> V -> T -> res (O * (C * option T))) (OI : O -> Prop).
Lemma dc_replay_in : (forall o x t o' c t1, OI o -> omega o x t = Ok (o', (c, t1)) -> OI o') ->
  forall o st t tr o' st' t', OI o -> dc_replay sp omega o st t tr o' st' t' ->
  forall e, In e tr -> exists o1 o2, OI o1 /\ omega o1 (d_x e) (d_t e) = Ok (o2, (d_cut e, d_t1 e)).
Proof.
  intros HI o st t tr o' st' t' Ho H. induction H as [|o st t c t1 o1 st1 s q tr o' st' t' Hw Hu Hr IH]; intros e He.
  - destruct He.
  - destruct He as [<-|He].
    + exists o, o1. split; assumption.
    + apply IH; [eapply HI; eassumption|assumption].
Qed.
Lemma dc_replay_mono_inv (le : T -> T -> Prop) : (forall a, le a a) -> (forall a b c, le a b -> le b c -> le a c) ->
  (forall o x t o' c t1, OI o -> omega o x t = Ok (o', (c, t1)) -> OI o') ->
  (forall o x t o' c t1, OI o -> omega o x t = Ok (o', (c, Some t1)) -> le t1 t) ->
  forall o st t tr o' st' t', OI o -> dc_replay sp omega o st t tr o' st' t' -> le t' t.
Proof.
  intros Hr Ht HI Hm o st t tr o' st' t' Ho H.
  induction H as [|o st t c t1 o1 st1 s q tr o' st' t' Hw Hu Hrep IH]; [apply Hr|].
  eapply Ht; [apply IH; eapply HI; eassumption|]. destruct t1 as [u|]; cbn [best]; [|apply Hr].
  eapply Hm; eassumption.
Qed.
End DcInv.

Section Old.
Variables (m : nat) (F : list (nat -> nat -> R)) (B : nat -> nat -> R).
Hypothesis HF : all_sym m F.

Lemma lmi_old_keep nx Q x Q' c : chol_for m Q -> lmi_old_call F B nx Q x = Ok (Q', c) -> chol_for m Q'.
Proof.
  intros HQ H. unfold lmi_old_call in H. apply bind_ok in H as (M & _ & H).
  apply bind_ok in H as ([Q1 b] & Hf & H). unfold chol_factorize in Hf.
  apply bind_ok in Hf as ([[[] Q1'] b'] & Hf & E). injection E as -> ->.
  apply chol_factor_keep with (m := m) in Hf; [|assumption].
  destruct b; [injection H as <- <-; assumption|].
  apply bind_ok in H as ([Q2 ep] & Hw & H). injection H as <- <-.
  unfold chol_witness in Hw. destruct (chol_is_spd Q1); [discriminate|]. destruct (c_p Q1).
  injection Hw as <- <-. exact Hf.
Qed.

Lemma lmi_old_call_spec Q x : sym m B -> chol_for m Q ->
  exists Q' c, lmi_old_call F B (length F) Q x = Ok (Q', c) /\ chol_for m Q' /\
    (c = None <-> pd m (aff_mat B F x)) /\
    forall g ep, c = Some (g, ep) -> 0 <= ep /\
      forall z, psd m (aff_mat B F z) -> dot (length F) g (fun i => z i - x i) + ep <= 0.
Proof.
  intros HB HQ.
  destruct (lmi_call_spec m F B HF Q x HB HQ) as (Q1 & c1 & H1 & _ & Hd & Hc).
  pose proof (old_same F B (length F) Q Q x eq_refl eq_refl (le_n _)) as Hs.
  rewrite H1 in Hs. unfold same_answer in Hs.
  destruct (lmi_old_call F B (length F) Q x) as [[Q2 c2]|e] eqn:E; [|destruct c1 as [[? ?]|]; contradiction].
  exists Q2, c2. split; [reflexivity|]. split; [eapply lmi_old_keep; eassumption|].
  destruct c1 as [[g1 ep1]|], c2 as [[g2 ep2]|]; try contradiction.
  - destruct Hs as [<- Hg]. split.
    + rewrite <- Hd. split; discriminate.
    + intros g ep Eg. injection Eg as <- <-. destruct (Hc g1 ep1 eq_refl) as [Hep Hz].
      split; [assumption|]. intros z Hp. specialize (Hz z Hp).
      rewrite (dot_ext (length F) g2 g1 (fun i => z i - x i) (fun i => z i - x i));
        [assumption|intros; symmetry; apply Hg|reflexivity].
  - split; [assumption|discriminate].
Qed.
End Old.

(** *** lsq *)
Section LSQ.
Variables (m : nat) (F : list (nat -> nat -> R)) (F0 : nat -> nat -> R).
Hypothesis HF : all_sym m F.
Let nx := length F.

Definition lsq_state (o : qmi R * chol R * chol R) : Prop :=
  let '(q, Qq, Q0) := o in chol_for m Qq /\ chol_for m Q0.
(** the constraints at (z, w), strictly or not *)
Definition lsq_feas (z : nat -> R) : Prop :=
  psd m (lin_mat F z) /\ psd m (qmi_mat m F0 F (z nx) z).
Definition lsq_feas_strict (z : nat -> R) : Prop :=
  pd m (lin_mat F z) /\ pd m (qmi_mat m F0 F (z nx) z).

Lemma dot_lift (g z x : nat -> R) (a : R) :
  dot (S nx) (fun k => if (k <? nx)%nat then g k else if (k =? nx)%nat then a else 0) (fun i => z i - x i) =
  dot nx g (fun i => z i - x i) + a * (z nx - x nx).
Proof.
  unfold dot. cbn [rsum]. destruct (Nat.ltb_spec nx nx); [lia|]. rewrite Nat.eqb_refl. f_equal.
  apply rsum_ext. intros k Hk. destruct (Nat.ltb_spec k nx); [reflexivity|lia].
Qed.

Lemma lsq_call_spec o x t : lsq_state o ->
  exists o' g fj t1, lsq_call F F0 m m nx o x t = Ok (o', ((g, fj), t1)) /\ lsq_state o' /\
   0 <= fj /\
   (forall t1', t1 = Some t1' -> t1' = x nx /\ t1' <= t /\ fj = 0 /\ lsq_feas_strict x) /\
   (t1 = None -> ~ (lsq_feas_strict x /\ x nx <= t)) /\
   (forall z, lsq_feas z -> z nx <= match t1 with Some t' => t' | None => t end ->
      dot (S nx) g (fun i => z i - x i) + fj <= 0).
Proof.
  destruct o as [[q Qq] Q0]. intros [Hq H0]. unfold lsq_call. fold nx.
  rewrite Nat.eqb_refl. cbn [negb].
  destruct (lmi0_call_spec m F HF Q0 x H0) as (Q0' & c & Hl & H0' & Hd & Hc). fold nx in Hl, Hc.
  rewrite Hl. cbn [bind]. destruct c as [[g1 fj]|].
  - destruct (Hc g1 fj eq_refl) as [Hf Hz].
    eexists _, _, _, _. split; [reflexivity|]. split; [split; assumption|]. split; [assumption|].
    split; [discriminate|]. split.
    { intros _ [[Hp _] _]. apply Hd in Hp. discriminate. }
    intros z [Hp _] _. specialize (Hz z Hp). 
    rewrite (dot_ext (S nx) _ (fun k => if (k <? nx)%nat then g1 k else if (k =? nx)%nat then 0 else 0)
               _ (fun i => z i - x i)); [rewrite dot_lift; lra| |reflexivity].
    intros i Hi. destruct (i <? nx)%nat, (i =? nx)%nat; reflexivity.
  - destruct (qmi_call_spec m m F F0 (qmi_update q (x nx)) Qq x (x nx) eq_refl Hq (or_intror eq_refl))
      as (q' & Qq' & c & Hcall & Ht & Hq' & Hdq & Hcq). fold nx in Hcall. rewrite Hcall. cbn [bind].
    destruct c as [[g1 fj]|].
    + destruct (Hcq g1 fj eq_refl) as (Hf & s & e & v & Hse & Hp & Hv & Hv1 & Hbf & Hg).
      assert (Hw : exists Q3, chol_witness Qq' = Ok (Q3, - c_T Qq' (e - 1)%nat (e - 1)%nat) /\ c_p Q3 = (s, e) /\
                chol_for m Q3 /\ forall k, (k < e - s)%nat -> c_v Q3 (s + k)%nat = v k).
      { (* gmi_oracle called witness already: calling it again gives the same vector *)
        unfold qmi_call, gmi_call in Hcall. apply bind_ok in Hcall as ([[q1 Q1] b] & Hfac & Hcall).
        destruct b; cbn [negb] in Hcall; [discriminate|].
        apply bind_ok in Hcall as ([Q2 ep] & Hwit & Hcall). apply bind_ok in Hcall as (gr & _ & Hcall).
        injection Hcall as <- <- <- <-.
        pose proof (factor_p_lt _ _ _ _ _ _ Hfac) as [Hb Hplt].
        unfold chol_is_spd in Hb. symmetry in Hb. apply Nat.eqb_neq in Hb.
        assert (Hso : same_outcome true 0 Q1 Q2 /\ c_p Q2 = c_p Q1).
        { unfold chol_witness in Hwit. destruct (chol_is_spd Q1); [discriminate|].
          destruct (c_p Q1) as [s1 e1] eqn:E1. injection Hwit as <- <-. unfold same_outcome. cbn [c_p c_T].
          rewrite E1. split; [|reflexivity]. split; [reflexivity|].
          split; [intros _ a b0 _ _; reflexivity|discriminate]. }
        destruct Hso as [Hso Ep].
        destruct (witness_agree true 0 Q1 Q2 Hso Hb) as (Qa & Qb & ep' & W1 & W2 & W3 & W4 & W5 & _); [lia|].
        rewrite Hwit in W1. injection W1 as <- <-.
        assert (W2' := W2). unfold chol_witness in W2'. destruct (chol_is_spd Q2); [discriminate|].
        rewrite Hp in W2'. injection W2' as EQ Ee.
        exists Qb. rewrite Ee. split; [assumption|]. split; [congruence|]. split.
        - rewrite <- EQ. exact Hq'.
        - intros k Hk. rewrite Hv. symmetry. apply W5. rewrite <- Ep, Hp. cbn. lia. }
      destruct Hw as (Q3 & Hw & Hp3 & HQ3 & Hv3). rewrite Hw. cbn [bind]. rewrite Hp3.
      eexists _, _, _, _. split; [reflexivity|]. split; [split; assumption|]. split; [assumption|].
      split; [discriminate|]. split.
      { intros _ [[_ Hpd] _]. apply Hdq in Hpd. discriminate. }
      intros z [_ Hz] _.
      pose proof (qmi_cut_lift m m F F0 s e v g1 fj x (x nx) Hse eq_refl HF Hbf Hg z (z nx) Hz) as Hlift.
      rewrite dot_lift. fold nx in Hlift. cbn [nopp ndot RNum].
      rewrite (rsum_ext (e - s) (fun k => c_v Q3 (s + k)%nat * c_v Q3 (s + k)%nat) (fun k => v k * v k))
        by (intros k Hk; rewrite Hv3 by assumption; reflexivity).
      unfold dot at 2 in Hlift. lra.
    + assert (Hst : lsq_feas_strict x) by (split; [apply Hd|apply Hdq]; reflexivity).
      change (@nltb R RNum) with Rltb. change (@nzero R RNum) with 0. cbn [nsub none RNum].
      assert (Hgd : forall z, dot (S nx) (fun k => if (k =? nx)%nat then 1 else 0) (fun i => z i - x i) = z nx - x nx).
      { intros z. rewrite (dot_ext (S nx) _ (fun k => if (k <? nx)%nat then (fun _ => 0) k else if (k =? nx)%nat then 1 else 0)
               _ (fun i => z i - x i)); [rewrite dot_lift| |reflexivity].
        - unfold dot. rewrite rsum_0 by (intros; ring). ring.
        - intros i Hi. destruct (Nat.ltb_spec i nx), (Nat.eqb_spec i nx); reflexivity || lia. }
      destruct (Rltb 0 (x nx - t)) eqn:B.
      * apply Rltb_true in B. eexists _, _, _, _. split; [reflexivity|]. split; [split; assumption|].
        split; [lra|]. split; [discriminate|]. split; [intros _ [_ Hx]; lra|].
        intros z _ Hz. rewrite Hgd. lra.
      * apply Rltb_false in B. eexists _, _, _, _. split; [reflexivity|]. split; [split; assumption|].
        split; [lra|]. split; [|split; [discriminate|]].
        -- intros t1' E. injection E as <-. split; [reflexivity|]. split; [lra|]. split; [reflexivity|assumption].
        -- intros z _ Hz. rewrite Hgd. lra.
Qed.
End LSQ.
