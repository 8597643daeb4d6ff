(** Property theorems about the matrix inequality oracles (C33-C38, C61, C66). *)
From Coq Require Import Reals Lra Psatz.
From Verif Require Import Base M_Drivers M_Chol M_Ell M_Lmi S_Drivers S_LinAlg P_LinAlg S_Lmi S_Ell
  P_Drivers P_Chol P_Chol2 P_Lmi P_Lmi2 P_EllCalc P_Ell P_Ell3 T_Drivers T_Ell T_Chol.
Local Open Scope R_scope.

(** The oracles' chol_ext object: made by chol_ext(m) and used any number of times since. *)
Definition oracle_chol (m : nat) (Q : chol R) : Prop := c_n Q = m /\ c_semi Q = false.

(** ** C33 *)
Theorem C33_lmi_decides :
  forall m F B (Q : chol R) x, all_sym m F -> sym m B -> oracle_chol m Q ->
  exists Q' c, lmi_call F B (length F) Q x = Ok (Q', c) /\ oracle_chol m Q' /\
    (c = None <-> pd m (aff_mat B F x)).
Proof.
  intros m F B Q x HF HB HQ. destruct (lmi_call_spec m F B HF Q x HB HQ) as (Q' & c & H & HQ' & Hd & _).
  exists Q', c. auto.
Qed.
Print Assumptions C33_lmi_decides.
Theorem C33_lmi_old_decides :
  forall m F B (Q : chol R) x, all_sym m F -> sym m B -> oracle_chol m Q ->
  exists Q' c, lmi_old_call F B (length F) Q x = Ok (Q', c) /\ oracle_chol m Q' /\
    (c = None <-> pd m (aff_mat B F x)).
Proof.
  intros m F B Q x HF HB HQ. destruct (lmi_old_call_spec m F B HF Q x HB HQ) as (Q' & c & H & HQ' & Hd & _).
  exists Q', c. auto.
Qed.
Print Assumptions C33_lmi_old_decides.
Theorem C33_lmi0_decides :
  forall m F (Q : chol R) x, all_sym m F -> oracle_chol m Q ->
  exists Q' c, lmi0_call F (length F) Q x = Ok (Q', c) /\ oracle_chol m Q' /\
    (c = None <-> pd m (lin_mat F x)).
Proof.
  intros m F Q x HF HQ. destruct (lmi0_call_spec m F HF Q x HQ) as (Q' & c & H & HQ' & Hd & _).
  exists Q', c. auto.
Qed.
Print Assumptions C33_lmi0_decides.

(** F = [I], B = [[2,1],[1,2]]: feasible at 0, not at 2 *)
Definition exF : list (nat -> nat -> R) := [mat22 1 0 1].
Lemma exF_sym : all_sym 2 exF.
Proof. intros M [<-|[]]. apply mat22_sym. Qed.
Lemma exF_aff x : forall v, bf 2 (aff_mat (mat22 2 1 2) exF x) v v =
  (2 - x 0%nat) * (v 0%nat * v 0%nat + v 1%nat * v 1%nat) + 2 * (v 0%nat * v 1%nat).
Proof. intros v. unfold bf, dot, mvr, dot, aff_mat, lin_mat, exF, mat22; cbn. ring. Qed.
Example C33_hypotheses_met :
  all_sym 2 exF /\ sym 2 (mat22 2 1 2) /\ oracle_chol 2 (chol_init 2) /\
  pd 2 (aff_mat (mat22 2 1 2) exF (fun _ => 0)) /\ ~ pd 2 (aff_mat (mat22 2 1 2) exF (fun _ => 2)).
Proof.
  split; [apply exF_sym|]. split; [apply mat22_sym|]. split; [split; reflexivity|]. split.
  - intros v Hv. rewrite exF_aff. pose proof (mat22_pd v Hv) as H. rewrite mat22_bf in H. lra.
  - intros H. specialize (H (fun i => if (i =? 0)%nat then 1 else -1)). rewrite exF_aff in H. cbn in H.
    assert (0 < -2); [|lra]. replace (-2) with ((2 - 2) * (1 * 1 + -1 * -1) + 2 * (1 * -1)) by ring.
    apply H. exists 0%nat. split; [lia|cbn; lra].
Qed.

(** ** C34 *)
Theorem C34_lmi_cut_valid :
  forall m F B (Q Q' : chol R) x g ep, all_sym m F -> sym m B -> oracle_chol m Q ->
  lmi_call F B (length F) Q x = Ok (Q', Some (g, ep)) ->
  0 <= ep /\
  forall z, psd m (aff_mat B F z) -> dot (length F) g (fun i => z i - x i) + ep <= 0.
Proof.
  intros m F B Q Q' x g ep HF HB HQ H.
  destruct (lmi_call_spec m F B HF Q x HB HQ) as (Q2 & c & H2 & _ & _ & Hc).
  rewrite H in H2. injection H2 as <- <-. apply Hc. reflexivity.
Qed.
Print Assumptions C34_lmi_cut_valid.
Theorem C34_lmi_old_cut_valid :
  forall m F B (Q Q' : chol R) x g ep, all_sym m F -> sym m B -> oracle_chol m Q ->
  lmi_old_call F B (length F) Q x = Ok (Q', Some (g, ep)) ->
  0 <= ep /\
  forall z, psd m (aff_mat B F z) -> dot (length F) g (fun i => z i - x i) + ep <= 0.
Proof.
  intros m F B Q Q' x g ep HF HB HQ H.
  destruct (lmi_old_call_spec m F B HF Q x HB HQ) as (Q2 & c & H2 & _ & _ & Hc).
  rewrite H in H2. injection H2 as <- <-. apply Hc. reflexivity.
Qed.
Print Assumptions C34_lmi_old_cut_valid.
Theorem C34_lmi0_cut_valid :
  forall m F (Q Q' : chol R) x g ep, all_sym m F -> oracle_chol m Q ->
  lmi0_call F (length F) Q x = Ok (Q', Some (g, ep)) ->
  0 <= ep /\
  forall z, psd m (lin_mat F z) -> dot (length F) g (fun i => z i - x i) + ep <= 0.
Proof.
  intros m F Q Q' x g ep HF HQ H.
  destruct (lmi0_call_spec m F HF Q x HQ) as (Q2 & c & H2 & _ & _ & Hc).
  rewrite H in H2. injection H2 as <- <-. apply Hc. reflexivity.
Qed.
Print Assumptions C34_lmi0_cut_valid.
Example C34_hypotheses_met : exists Q' g ep,
  lmi_call exF (mat22 2 1 2) 1 (chol_init 2) (fun _ => 2) = Ok (Q', Some (g, ep)) /\
  psd 2 (aff_mat (mat22 2 1 2) exF (fun _ => 0)).
Proof.
  destruct C33_hypotheses_met as (H1 & H2 & H3 & H4 & H5).
  destruct (C33_lmi_decides 2 exF (mat22 2 1 2) (chol_init 2) (fun _ => 2) H1 H2 H3) as (Q' & c & H & _ & Hd).
  destruct c as [[g ep]|]; [|exfalso; apply H5, Hd; reflexivity].
  exists Q', g, ep. split; [exact H|]. apply pd_psd. exact H4.
Qed.

(** ** C35 (in every arithmetic) *)
Theorem C35_lmi_old_same_as_lmi :
  forall (A : Type) (N : Num A) (NE : NdotExt A) (F : list (nat -> nat -> A)) B (Q Q' : chol A) x,
  c_n Q = c_n Q' -> c_semi Q = c_semi Q' ->
  match lmi_call F B (length F) Q x, lmi_old_call F B (length F) Q' x with
  | Ok (_, None), Ok (_, None) => True
  | Ok (_, Some (g, ep)), Ok (_, Some (g', ep')) => ep = ep' /\ forall k, (k < length F)%nat -> g k = g' k
  | Raise e, Raise e' => e = e'
  | _, _ => False
  end.
Proof.
  intros A N NE F B Q Q' x En Es.
  pose proof (old_same F B (length F) Q Q' x En Es (le_n _)) as H. unfold same_answer in H.
  destruct (lmi_call F B (length F) Q x) as [[Q1 [[g ep]|]]|];
    destruct (lmi_old_call F B (length F) Q' x) as [[Q2 [[g' ep']|]]|]; try exact H; try tauto.
  destruct H as [H1 H2]. split; auto.
Qed.
Print Assumptions C35_lmi_old_same_as_lmi.
Example C35_hypotheses_met : exists Q' g ep,
  lmi_call exF (mat22 2 1 2) 1 (chol_init 2) (fun _ => 2) = Ok (Q', Some (g, ep)) /\
  c_n Q' = c_n (chol_init (A := R) 2) /\ c_semi Q' = c_semi (chol_init (A := R) 2).
Proof.
  destruct C34_hypotheses_met as (Q' & g & ep & H & _). exists Q', g, ep. split; [assumption|].
  destruct (C33_lmi_decides 2 exF (mat22 2 1 2) (chol_init 2) (fun _ => 2) exF_sym (mat22_sym _ _ _)
    (conj eq_refl eq_refl)) as (Q2 & c & H2 & [E1 E2] & _).
  change (length exF) with 1%nat in H2. rewrite H in H2. injection H2 as <- <-. split; assumption.
Qed.

(** ** C36 *)
Theorem C36_qmi_decides :
  forall rows cols F F0 (q : qmi R) (Q : chol R) x t,
  q_t q = Some t -> oracle_chol cols Q -> (F = [] \/ rows = cols) ->
  exists q' Q' c, qmi_call F F0 rows cols (length F) q Q x = Ok (q', Q', c) /\
    q_t q' = Some t /\ oracle_chol cols Q' /\
    (c = None <-> pd cols (qmi_mat rows F0 F t x)).
Proof.
  intros rows cols F F0 q Q x t Ht HQ Hd.
  destruct (qmi_call_spec rows cols F F0 q Q x t Ht HQ Hd) as (q' & Q' & c & H & H1 & H2 & H3 & _).
  exists q', Q', c. auto.
Qed.
Print Assumptions C36_qmi_decides.
(** Before the first update the oracle raises TypeError (None + number). *)
Theorem C36_qmi_needs_update :
  forall rows cols F F0 (q : qmi R) (Q : chol R) x,
  q_t q = None -> c_n Q = S cols ->
  qmi_call F F0 rows (S cols) (length F) q Q x = Raise TypeError.
Proof.
  intros rows cols F F0 q Q x Ht Hn. unfold qmi_call, gmi_call, chol_factor. rewrite Hn. cbn [chol_rows].
  unfold qmi_eval at 1. cbn [Nat.ltb Nat.leb q_count]. rewrite Nat.leb_refl. cbn [bind Nat.eqb q_t].
  change (0 <? 0 + 1)%nat with true. cbn [bind q_t]. rewrite Ht. reflexivity.
Qed.
Print Assumptions C36_qmi_needs_update.
Definition exq : qmi R := qmi_update qmi_init 1.
Example C36_hypotheses_met :
  q_t exq = Some 1 /\ oracle_chol 2 (chol_init 2) /\
  pd 2 (qmi_mat 2 (fun _ _ => 0) exF 1 (fun _ => 0)).
Proof.
  split; [reflexivity|]. split; [split; reflexivity|]. intros v (k & Hk & Hv).
  assert (E : bf 2 (qmi_mat 2 (fun _ _ => 0) exF 1 (fun _ => 0)) v v = v 0%nat * v 0%nat + v 1%nat * v 1%nat).
  { unfold bf, dot, mvr, dot, qmi_mat, aff_mat, lin_mat, exF, mat22; cbn. ring. }
  rewrite E. assert (0 <= v 0%nat * v 0%nat) by apply Rle_0_sqr. assert (0 <= v 1%nat * v 1%nat) by apply Rle_0_sqr.
  assert (0 < v k * v k) by nra. destruct k as [|[|k]]; [| |lia]; lra.
Qed.

(** ** C37 *)
(** Full claim: the cut is valid for all F_k.  False; proved for symmetric F_k (which is the case
    for the correlation oracles, C60). *)
Theorem C37_qmi_cut_valid_symmetric_partial :
  forall n F F0 (q q' : qmi R) (Q Q' : chol R) x t g ep,
  all_sym n F -> q_t q = Some t -> oracle_chol n Q ->
  qmi_call F F0 n n (length F) q Q x = Ok (q', Q', Some (g, ep)) ->
  0 <= ep /\
  forall z, psd n (qmi_mat n F0 F t z) -> dot (length F) g (fun i => z i - x i) + ep <= 0.
Proof.
  intros n F F0 q q' Q Q' x t g ep HF Ht HQ H.
  destruct (qmi_call_spec n n F F0 q Q x t Ht HQ (or_intror eq_refl)) as (q2 & Q2 & c & H2 & _ & _ & _ & Hc).
  rewrite H in H2. injection H2 as <- <- <-.
  destruct (Hc g ep eq_refl) as (Hep & s & e & v & Hse & _ & _ & _ & Hbf & Hg).
  split; [assumption|]. intros z Hz.
  pose proof (qmi_cut_lift n n F F0 s e v g ep x t Hse eq_refl HF Hbf Hg z t Hz) as Hl. lra.
Qed.
Print Assumptions C37_qmi_cut_valid_symmetric_partial.

(** F(x) = [[0, x], [2-x, 0]]: F1 = [[0,-1],[1,0]] is not symmetric.  At x = 0 the oracle
    returns the cut 4 (z - 0) + 3 <= 0, which z = 1 violates although it satisfies the inequality. *)
Definition rF0 : nat -> nat -> R := fun i j => if andb (i =? 1)%nat (j =? 0)%nat then 2 else 0.
Definition rF1 : nat -> nat -> R :=
  fun i j => if andb (i =? 0)%nat (j =? 1)%nat then -1 else if andb (i =? 1)%nat (j =? 0)%nat then 1 else 0.
Lemma qmi_bad_cut : exists q' Q' g ep,
  qmi_call [rF1] rF0 2 2 1 exq (chol_init 2) (fun _ => 0) = Ok (q', Q', Some (g, ep)) /\ g 0%nat = 4 /\ ep = 3.
Proof.
  unfold qmi_call, gmi_call, chol_factor. cbn [c_semi c_n c_T chol_init chol_rows].
  unfold qmi_eval at 1. cbn [Nat.ltb Nat.leb q_count Nat.add Nat.eqb bind length q_t exq qmi_update].
  cbn [chol_row bind Nat.sub].
  change (@nltb R RNum) with Rltb. change (@nzero R RNum) with 0.
  match goal with |- context [Rltb 0 ?d] => replace d with (-3) by
    (unfold rowset, psum, nf, rF0, rF1; cbn; ring) end.
  destruct (Rltb 0 (-3)) eqn:B1; [apply Rltb_true in B1; lra|].
  destruct (Rltb (-3) 0) eqn:B2; [|apply Rltb_false in B2; lra].
  cbn [orb negb bind]. unfold chol_is_spd; cbn [c_p snd Nat.eqb].
  unfold chol_witness, chol_is_spd; cbn [c_p snd Nat.eqb Nat.sub c_T c_v c_n c_semi witness_loop bind].
  rewrite mset_eq. unfold qmi_grad. cbn [c_p length Nat.eqb orb bind].
  eexists _, _, _, _. split; [reflexivity|]. split.
  - cbn. unfold vset, rowset, nf, rF0, rF1. cbn. ring.
  - cbn. ring.
Qed.
Theorem C37_qmi_cut_valid_refuted :
  ~ (forall n F F0 (q q' : qmi R) (Q Q' : chol R) x t g ep,
     q_t q = Some t -> oracle_chol n Q ->
     qmi_call F F0 n n (length F) q Q x = Ok (q', Q', Some (g, ep)) ->
     forall z, psd n (qmi_mat n F0 F t z) -> dot (length F) g (fun i => z i - x i) + ep <= 0).
Proof.
  intros H. destruct qmi_bad_cut as (q' & Q' & g & ep & Hc & Hg & ->).
  specialize (H 2%nat [rF1] rF0 exq q' (chol_init 2) Q' (fun _ => 0) 1 g 3 eq_refl (conj eq_refl eq_refl) Hc
               (fun _ => 1)).
  cbn [length] in H. unfold dot in H; cbn [rsum] in H. rewrite Hg in H.
  assert (0 + 4 * (1 - 0) + 3 <= 0); [|lra]. apply H.
  intros v. assert (E : bf 2 (qmi_mat 2 rF0 [rF1] 1 (fun _ => 1)) v v = 0).
  { unfold bf, dot, mvr, dot, qmi_mat, aff_mat, lin_mat, rF0, rF1; cbn. ring. }
  rewrite E. lra.
Qed.
Print Assumptions C37_qmi_cut_valid_refuted.
Example C37_hypotheses_met : exists q' Q' g ep, all_sym 2 exF /\
  qmi_call exF (fun _ _ => 0) 2 2 1 exq (chol_init 2) (fun _ => 2) = Ok (q', Q', Some (g, ep)).
Proof.
  destruct (C36_qmi_decides 2 2 exF (fun _ _ => 0) exq (chol_init 2) (fun _ => 2) 1 eq_refl
    (conj eq_refl eq_refl) (or_intror eq_refl)) as (q' & Q' & c & H & _ & _ & Hd).
  change (length exF) with 1%nat in H.
  destruct c as [[g ep]|]; [exists q', Q', g, ep; split; [apply exF_sym|exact H]|exfalso].
  assert (Hp := proj1 Hd eq_refl (fun i => if (i =? 0)%nat then 1 else 0)).
  assert (E : bf 2 (qmi_mat 2 (fun _ _ => 0) exF 1 (fun _ => 2)) (fun i => if (i =? 0)%nat then 1 else 0)
                 (fun i => if (i =? 0)%nat then 1 else 0) = -3).
  { unfold bf, dot, mvr, dot, qmi_mat, aff_mat, lin_mat, exF, mat22; cbn. ring. }
  rewrite E in Hp. assert (0 < -3); [|lra]. apply Hp. exists 0%nat. split; [lia|cbn; lra].
Qed.

(** ** C38 *)
(** z = (z_0 .. z_{n-1}, w) with w = z_n *)
Theorem C38_lsq_oracle_valid :
  forall m F F0 (o : qmi R * chol R * chol R) x t,
  all_sym m F ->
  (let '(q, Qq, Q0) := o in oracle_chol m Qq /\ oracle_chol m Q0) ->
  let n := length F in
  exists o' g fj t1, lsq_call F F0 m m n o x t = Ok (o', ((g, fj), t1)) /\
   (let '(q, Qq, Q0) := o' in oracle_chol m Qq /\ oracle_chol m Q0) /\ 0 <= fj /\
   (forall t1', t1 = Some t1' <->
      t1' = x n /\ t1' <= t /\ pd m (lin_mat F x) /\ pd m (qmi_mat m F0 F (x n) x)) /\
   (forall z, psd m (lin_mat F z) -> psd m (qmi_mat m F0 F (z n) z) ->
      z n <= match t1 with Some t' => t' | None => t end ->
      dot (S n) g (fun i => z i - x i) + fj <= 0).
Proof.
  intros m F F0 o x t HF Ho n.
  destruct (lsq_call_spec m F F0 HF o x t Ho) as (o' & g & fj & t1 & H & Ho' & Hfj & H1 & H2 & H3).
  exists o', g, fj, t1. split; [exact H|]. split; [exact Ho'|]. split; [assumption|]. split.
  - intros t1'. split.
    + intros E. destruct (H1 _ E) as (E1 & E2 & _ & E3 & E4). auto.
    + intros (E1 & E2 & E3 & E4). destruct t1 as [u|].
      * destruct (H1 u eq_refl) as [Eu _]. rewrite Eu, E1. reflexivity.
      * exfalso. apply (H2 eq_refl). split; [split; assumption|]. fold n. lra.
  - intros z Hz1 Hz2 Hz. apply H3; [split; assumption|assumption].
Qed.
Print Assumptions C38_lsq_oracle_valid.
Example C38_hypotheses_met :
  all_sym 2 exF /\ oracle_chol 2 (chol_init 2) /\
  (forall x, pd 2 (lin_mat exF x) <-> 0 < x 0%nat).
Proof.
  split; [apply exF_sym|]. split; [split; reflexivity|]. intros x.
  assert (E : forall v, bf 2 (lin_mat exF x) v v = x 0%nat * (v 0%nat * v 0%nat + v 1%nat * v 1%nat)).
  { intros v. unfold bf, dot, mvr, dot, lin_mat, exF, mat22; cbn. ring. }
  split.
  - intros H. specialize (H (fun i => if (i =? 0)%nat then 1 else 0)). rewrite E in H. cbn in H.
    replace (x 0%nat) with (x 0%nat * (1 * 1 + 0 * 0)) by ring. apply H. exists 0%nat. split; [lia|cbn; lra].
  - intros Hx v (k & Hk & Hv). rewrite E. apply Rmult_lt_0_compat; [assumption|].
    assert (0 <= v 0%nat * v 0%nat) by apply Rle_0_sqr. assert (0 <= v 1%nat * v 1%nat) by apply Rle_0_sqr.
    assert (0 < v k * v k) by nra. destruct k as [|[|k]]; [| |lia]; lra.
Qed.

(** ** C61 *)
Definition lmi_omega F B (Q : chol R) (x : nat -> R) : res (chol R * option (cut R)) :=
  ' (Q', c) <- lmi_call F B (length F) Q x ;; Ok (Q', to_cut c).
Lemma lmi_omega_separates m F B : all_sym m F -> sym m B ->
  separates (lmi_omega F B) (oracle_chol m) (sat_cut (length F)) (fun z => psd m (aff_mat B F z)).
Proof.
  intros HF HB Q x Q' a HQ H. unfold lmi_omega in H. apply bind_ok in H as ([Q1 c] & Hl & H).
  injection H as <- <-.
  destruct (lmi_call_spec m F B HF Q x HB HQ) as (Q2 & c2 & Hl' & HQ' & _ & Hc).
  rewrite Hl in Hl'. injection Hl' as <- <-. split; [exact HQ'|].
  destruct c as [[g ep]|]; cbn; [|trivial]. intros z Hz. apply (Hc g ep eq_refl). assumption.
Qed.
Theorem C61_lmi_end_to_end :
  forall m F B max_it tol (Q : chol R) w e tr Q' w' e' info,
  all_sym m F -> sym m B -> oracle_chol m Q -> ell_wf e -> e_n e = length F ->
  cutting_plane_feas ell_space Rltb (lmi_omega F B) max_it tol Q (w, e) = Ok (tr, Q', (w', e'), info) ->
  (feasible info = true -> pd m (aff_mat B F (w' (e_xc e')))) /\
  (cstatus info = nosoln -> forall z, mem_ell (w, e) z -> ~ psd m (aff_mat B F z)) /\
  (cstatus info <> nosoln -> forall z, mem_ell (w, e) z -> psd m (aff_mat B F z) -> mem_ell (w', e') z).
Proof.
  intros m F B max_it tol Q w e tr Q' w' e' info HF HB HQ He Hn H.
  pose proof (lmi_omega_separates m F B HF HB) as Hsep. rewrite <- Hn in Hsep.
  destruct (C03_feas_ell_never_loses _ _ _ _ _ _ _ _ _ _ _ _ _ _ Hsep He HQ H) as [H1 H2].
  split; [|split; assumption].
  intros Hf. destruct (C01_feas_only_at_approved_centre _ _ _ _ _ _ _ _ _ _ _ _ _ _ _ _ _ H) as (Hr & Hc & _).
  destruct (Hc Hf) as (tr0 & ->).
  destruct (replay_last_none ell_space (lmi_omega F B) (oracle_chol m)) with
    (tr0 := tr0) (o := Q) (st := (w, e)) (x := centre ell_space (w', e')) (o' := Q') (st' := (w', e'))
    as (Q1 & HQ1 & Hq & _); auto.
  - intros o x o' a Ho Hx. apply (Hsep o x o' a Ho Hx).
  - unfold lmi_omega in Hq. apply bind_ok in Hq as ([Q2 c] & Hl & Hq). injection Hq as <- Hcc.
    destruct (lmi_call_spec m F B HF Q1 (centre ell_space (w', e')) HB HQ1) as (Q3 & c3 & Hl' & _ & Hd & _).
    rewrite Hl in Hl'. injection Hl' as <- <-. apply Hd. destruct c as [[? ?]|]; [discriminate|reflexivity].
Qed.
Print Assumptions C61_lmi_end_to_end.
(** two variables, so that ell accepts the dimension *)
Definition exF2 : list (nat -> nat -> R) := [mat22 1 0 1; mat22 0 1 0].
Example C61_hypotheses_met :
  all_sym 2 exF2 /\ sym 2 (mat22 2 1 2) /\ oracle_chol 2 (chol_init 2) /\ ell_wf ball2 /\
  e_n ball2 = length exF2 /\
  exists tr Q' st', cutting_plane_feas ell_space Rltb (lmi_omega exF2 (mat22 2 1 2)) 1 1 (chol_init 2) (zmem, ball2)
    = Ok (tr, Q', st', {| feasible := true; num_iters := 1; cstatus := success |}).
Proof.
  assert (HF : all_sym 2 exF2) by (intros M [<-|[<-|[]]]; apply mat22_sym).
  split; [exact HF|]. split; [apply mat22_sym|]. split; [split; reflexivity|].
  split; [apply ball2_proper|]. split; [reflexivity|].
  destruct (lmi_call_spec 2 exF2 (mat22 2 1 2) HF (chol_init 2) (fun _ => 0) (mat22_sym _ _ _) (conj eq_refl eq_refl))
    as (Q' & c & Hl & _ & Hd & _).
  assert (c = None) as ->.
  { apply Hd. intros v Hv. pose proof (mat22_pd v Hv) as H. rewrite mat22_bf in H.
    assert (E : bf 2 (aff_mat (mat22 2 1 2) exF2 (fun _ => 0)) v v =
      2 * (v 0%nat * v 0%nat) + 2 * 1 * (v 0%nat * v 1%nat) + 2 * (v 1%nat * v 1%nat)).
    { unfold bf, dot, mvr, dot, aff_mat, lin_mat, exF2, mat22; cbn. ring. }
    lra. }
  unfold cutting_plane_feas, feas_loop, lmi_omega, centre.
  cbn [ell_space sp_deref sp_xc fst snd e_xc ball2]. unfold zmem at 1. rewrite Hl. cbn [bind to_cut].
  do 3 eexists. reflexivity.
Qed.

(** ** C66: least squares estimation end to end *)
Definition lsq_omega m F F0 (o : qmi R * chol R * chol R) (x : nat -> R) (t : R)
  : res ((qmi R * chol R * chol R) * (cut R * option R)) :=
  ' (o', ((g, fj), t1)) <- lsq_call F F0 m m (length F) o x t ;; Ok (o', ((g, BScalar fj), t1)).
Lemma lsq_omega_optimizes m F F0 : all_sym m F ->
  optimizes (lsq_omega m F F0)
    (fun o => let '(q, Qq, Q0) := o in oracle_chol m Qq /\ oracle_chol m Q0) (sat_cut (S (length F)))
    (fun t z => psd m (lin_mat F z) /\ psd m (qmi_mat m F0 F (z (length F)) z) /\ z (length F) <= t).
Proof.
  intros HF o x t0 o1 c t1 Ho Hc. unfold lsq_omega in Hc.
  apply bind_ok in Hc as ([o2 [[g fj] t2]] & Hl & Hc). injection Hc as <- <- <-.
  destruct (C38_lsq_oracle_valid m F F0 o x t0 HF Ho) as (o3 & g3 & fj3 & t3 & Hl' & Ho' & _ & Ht & Hz).
  rewrite Hl in Hl'. injection Hl' as <- <- <- <-. split; [exact Ho'|].
  split.
  - intros z (Z1 & Z2 & Z3). apply Hz; [assumption|assumption|]. destruct t2; exact Z3.
  - intros z (Z1 & Z2 & Z3). split; [assumption|]. split; [assumption|].
    destruct t2 as [u|]; cbn [best] in Z3; [|assumption].
    destruct (proj1 (Ht u) eq_refl) as (_ & Hu & _). lra.
Qed.
Theorem C66_lsq_end_to_end :
  forall m F F0 tneq max_it tol (q : qmi R) (Qq Q0 : chol R) w e t tr o' w' e' xb t' info,
  all_sym m F -> oracle_chol m Qq -> oracle_chol m Q0 -> ell_wf e -> e_n e = S (length F) ->
  cutting_plane_dc ell_space Rltb tneq (lsq_omega m F F0) max_it tol (q, Qq, Q0) (w, e) t
    = Ok (tr, o', (w', e'), (xb, t', info)) ->
  let n := length F in
  let feas z := psd m (lin_mat F z) /\ psd m (qmi_mat m F0 F (z n) z) /\ z n <= t' in
  (cstatus info = nosoln -> forall z, mem_ell (w, e) z -> ~ feas z) /\
  (cstatus info <> nosoln -> forall z, mem_ell (w, e) z -> feas z -> mem_ell (w', e') z) /\
  t' <= t /\
  (xb = None -> t' = t) /\
  (xb <> None -> exists x, t' = x n /\ pd m (lin_mat F x) /\ pd m (qmi_mat m F0 F t' x)).
Proof.
  intros m F F0 tneq max_it tol q Qq Q0 w e t tr o' w' e' xb t' info HF Hq H0 He Hn H n feas.
  set (OI := fun o : qmi R * chol R * chol R => let '(q, Qq, Q0) := o in oracle_chol m Qq /\ oracle_chol m Q0).
  assert (Ho : OI (q, Qq, Q0)) by (split; assumption).
  pose proof (lsq_omega_optimizes m F F0 HF) as Hopt. rewrite <- Hn in Hopt.
  destruct (C06_dc_ell_never_loses_better _ _ tneq (lsq_omega m F F0) OI _
    max_it tol _ w e t tr o' w' e' xb t' info Hopt He Ho H) as [H1 H2].
  split; [exact H1|]. split; [exact H2|].
  destruct (C04_dc_last_improvement _ _ _ _ _ _ _ _ _ _ _ _ _ _ _ _ _ _ _ _ _ _ H) as (Hr & Hb & _).
  assert (HI : forall o x t o' c t1, OI o -> lsq_omega m F F0 o x t = Ok (o', (c, t1)) -> OI o').
  { intros o x t0 o1 c t1 Ho1 Hx. apply (Hopt o x t0 o1 c t1 Ho1 Hx). }
  assert (Hrep : forall o x t o' c t1, OI o -> lsq_omega m F F0 o x t = Ok (o', (c, Some t1)) ->
    t1 = x n /\ t1 <= t /\ pd m (lin_mat F x) /\ pd m (qmi_mat m F0 F t1 x)).
  { intros o x t0 o1 c t1 Ho1 Hx. unfold lsq_omega in Hx. apply bind_ok in Hx as ([o2 [[g fj] t2]] & Hl & Hx).
    injection Hx as <- <- ->.
    destruct (C38_lsq_oracle_valid m F F0 o x t0 HF Ho1) as (o3 & g3 & fj3 & t3 & Hl' & _ & _ & Ht & _).
    rewrite Hl in Hl'. injection Hl' as <- <- <- <-. destruct (proj1 (Ht t1) eq_refl) as (E1 & E2 & E3 & E4).
    fold n in E1. split; [exact E1|]. split; [exact E2|]. split; [exact E3|]. rewrite E1. exact E4. }
  split.
  { refine (dc_replay_mono_inv ell_space (lsq_omega m F F0) OI Rle Rle_refl Rle_trans HI _
      (q, Qq, Q0) (w, e) t tr o' (w', e') t' Ho Hr).
    intros o x t0 o1 c t1 Ho1 Hx. apply (Hrep _ _ _ _ _ _ Ho1 Hx). }
  destruct Hb as [(_ & -> & ->)|(tr1 & ev & tr2 & -> & _ & Hev & Hxb)].
  - split; [reflexivity|congruence].
  - split; [congruence|]. intros _.
    destruct (dc_replay_in ell_space (lsq_omega m F F0) OI HI _ _ _ _ _ _ _ Ho Hr ev) as (o1 & o2 & Ho1 & Hx);
      [apply in_or_app; right; left; reflexivity|].
    rewrite Hev in Hx. destruct (Hrep _ _ _ _ _ _ Ho1 Hx) as (E1 & _ & E2 & E3).
    exists (d_x ev). auto.
Qed.
Print Assumptions C66_lsq_end_to_end.
Definition omem : memory R := fun _ k => if Nat.eqb k 0 then 1 else 2.
Example C66_hypotheses_met :
  all_sym 2 exF /\ oracle_chol 2 (chol_init 2) /\ ell_wf ball2 /\ e_n ball2 = S (length exF) /\
  exists tr o' st' xb info, cutting_plane_dc ell_space Rltb (fun a b => negb (Req_bool a b))
     (lsq_omega 2 exF (fun _ _ => 0)) 1 2 (qmi_init, chol_init 2, chol_init 2) (omem, ball2) 3
    = Ok (tr, o', st', (Some xb, 2, info)).
Proof.
  split; [apply exF_sym|]. split; [split; reflexivity|]. split; [apply ball2_proper|]. split; [reflexivity|].
  destruct (C33_lmi0_decides 2 exF (chol_init 2) (omem 0%nat) exF_sym (conj eq_refl eq_refl)) as (Q1 & c1 & E1 & _ & Hd1).
  assert (c1 = None) as -> by (apply Hd1, C38_hypotheses_met; unfold omem; cbn; lra).
  destruct (C36_qmi_decides 2 2 exF (fun _ _ => 0) (qmi_update qmi_init 2) (chol_init 2) (omem 0%nat) 2 eq_refl
    (conj eq_refl eq_refl) (or_intror eq_refl)) as (q2 & Q2 & c2 & E2 & _ & _ & Hd2).
  assert (c2 = None) as ->.
  { apply Hd2. intros v (k & Hk & Hv).
    assert (E : bf 2 (qmi_mat 2 (fun _ _ => 0) exF 2 (omem 0%nat)) v v = v 0%nat * v 0%nat + v 1%nat * v 1%nat).
    { unfold bf, dot, mvr, dot, qmi_mat, aff_mat, lin_mat, exF, mat22, omem; cbn. ring. }
    rewrite E. assert (0 <= v 0%nat * v 0%nat) by apply Rle_0_sqr. assert (0 <= v 1%nat * v 1%nat) by apply Rle_0_sqr.
    assert (0 < v k * v k) by nra. destruct k as [|[|k]]; [| |lia]; lra. }
  assert (E : exists o' g, lsq_omega 2 exF (fun _ _ => 0) (qmi_init, chol_init 2, chol_init 2) (omem 0%nat) 3
    = Ok (o', ((g, BScalar 0), Some 2)) /\ nonzero 2 g).
  { unfold lsq_omega, lsq_call. change (length exF) with 1%nat in *. cbn [Nat.eqb negb]. rewrite E1. cbn [bind].
    change (omem 0%nat 1%nat) with 2. rewrite E2. cbn [bind].
    change (@nltb R RNum) with Rltb. change (@nzero R RNum) with 0. change (@nsub R RNum) with Rminus.
    destruct (Rltb 0 (2 - 3)) eqn:B; [apply Rltb_true in B; lra|]. cbn [bind].
    eexists _, _. split; [reflexivity|]. exists 1%nat. split; [lia|cbn; lra]. }
  destruct E as (o' & g & E & Hg).
  unfold cutting_plane_dc, dc_loop, centre.
  cbn [ell_space sp_deref sp_xc fst snd e_xc ball2]. rewrite E. cbn [bind].
  fold ball2. change (sp_update ell_space) with (ell_update (A := R)).
  destruct (C24_update_defined_partial omem ball2 g (BScalar 0) ball2_proper Hg) as [Hiff Hx]; [discriminate|].
  destruct (ell_update (omem, ball2) (g, BScalar 0)) as [[st1 [s tsq]]|x] eqn:Eu.
  - cbn [bind]. destruct (negb (status_eqb s success)); [do 5 eexists; reflexivity|].
    destruct (Rltb tsq 2); do 5 eexists; reflexivity.
  - exfalso. rewrite (Hx x eq_refl) in Hiff. destruct (proj1 Hiff eq_refl) as [Hf _]. apply Hf. reflexivity.
Qed.
