(** Proofs about ell.update: the ellipsoid as a set of points. *)
From Coq Require Import Reals Lra Psatz.
From Verif Require Import Base M_Drivers M_Ell S_LinAlg P_LinAlg S_Drivers S_Ell P_EllCalc.
Local Open Scope R_scope.

(** *** The set and the inverse matrix *)
Lemma in_ell_inverse n Q P kappa xc x :
  inverse n Q P ->
  (in_ell n Q kappa xc x <->
   bf n P (fun i => x i - xc i) (fun i => x i - xc i) <= kappa).
Proof.
  intros [HQP HPQ]. split.
  - intros (w & Hx & Hw).
    assert (E1 : forall i, (i < n)%nat -> x i - xc i = mvr n Q w i)
      by (intros i Hi; rewrite Hx by assumption; ring).
    rewrite (bf_ext n P _ (mvr n Q w) _ (mvr n Q w)) by assumption.
    unfold bf. rewrite (dot_ext n (mvr n Q w) (mvr n Q w) _ w).
    + rewrite dot_comm. exact Hw.
    + reflexivity.
    + intros i Hi. rewrite <- mm_mv, (meq_mvr n _ _ w i HPQ) by assumption.
      apply idm_mv; assumption.
  - intros H. exists (mvr n P (fun i => x i - xc i)). 
    assert (E : forall i, (i < n)%nat ->
              mvr n Q (mvr n P (fun i => x i - xc i)) i = x i - xc i).
    { intros i Hi. rewrite <- mm_mv, (meq_mvr n _ _ _ i HQP) by assumption.
      apply (idm_mv n (fun i => x i - xc i)); assumption. }
    split.
    + intros i Hi. rewrite E by assumption. ring.
    + unfold bf. rewrite (dot_ext n _ (mvr n P (fun i => x i - xc i)) _ (fun i => x i - xc i)).
      * rewrite dot_comm. exact H.
      * reflexivity.
      * exact E.
Qed.

Lemma in_ell_ext n Q Q' k k' xc xc' z z' :
  meq n Q Q' -> k = k' -> (forall i, (i < n)%nat -> xc i = xc' i) ->
  (forall i, (i < n)%nat -> z i = z' i) ->
  in_ell n Q k xc z -> in_ell n Q' k' xc' z'.
Proof.
  intros HQ <- Hx Hz (w & Hw & Hk). exists w. split.
  - intros i Hi. rewrite <- Hz, Hw, <- Hx, (mvr_mext n Q Q') by assumption. reflexivity.
  - rewrite <- (bf_mext n Q Q') by assumption. exact Hk.
Qed.

(** every point of the set is within sqrt(kappa g'Qg) of the centre along g *)
Lemma in_ell_range n Q kappa xc z g :
  sym n Q -> psd n Q -> in_ell n Q kappa xc z ->
  let a := dot n g (fun i => z i - xc i) in a * a <= kappa * bf n Q g g.
Proof.
  intros Hs Hp (w & Hz & Hw) a.
  assert (Ea : a = bf n Q g w).
  { apply dot_ext; [reflexivity|]. intros i Hi. rewrite Hz by assumption. ring. }
  rewrite Ea. pose proof (cauchy n Q g w Hs Hp). pose proof (Hp g). nra.
Qed.

(** *** The rank-one update *)
Section Step.
Variables (n : nat) (Q : nat -> nat -> R) (kappa : R) (xc g : nat -> R).
Hypothesis Hs : sym n Q.
Hypothesis Hp : psd n Q.
Let Qg := mvr n Q g.
Let omega := bf n Q g g.
Hypothesis Hom : 0 < omega.
Variables rho sigma delta : R.
Let Q1 := fun i j => Q i j - sigma / omega * (Qg i * Qg j).
Let xc1 := fun i => xc i - rho / omega * Qg i.

Lemma dot_Qg u : dot n u Qg = bf n Q u g.
Proof. reflexivity. Qed.
Lemma dot_Qg' u : dot n Qg u = bf n Q g u.
Proof. rewrite dot_comm, dot_Qg. apply bf_sym; assumption. Qed.

Lemma Q1_bf u v : bf n Q1 u v = bf n Q u v - sigma / omega * (bf n Q g u * bf n Q g v).
Proof. unfold Q1. rewrite bf_rank1, dot_Qg', dot_Qg, (bf_sym n Q u g Hs). reflexivity. Qed.
Lemma Q1_mv v i : mvr n Q1 v i = mvr n Q v i - sigma / omega * (Qg i * bf n Q g v).
Proof. unfold Q1. rewrite mvr_rank1, dot_Qg'. reflexivity. Qed.

Lemma Q1_sym : sym n Q1.
Proof. intros i j Hi Hj. unfold Q1. rewrite (Hs i j) by assumption. ring. Qed.

Lemma Q1_lower u : sigma <= 1 -> 0 <= sigma -> (1 - sigma) * bf n Q u u <= bf n Q1 u u.
Proof.
  intros H1 H0. rewrite Q1_bf.
  pose proof (cauchy n Q g u Hs Hp) as Hc. fold omega in Hc.
  assert (sigma / omega * (bf n Q g u * bf n Q g u) <= sigma / omega * (omega * bf n Q u u)) as H.
  { apply Rmult_le_compat_l; [|assumption].
    apply Rmult_le_pos; [assumption|]. left; apply Rinv_0_lt_compat; assumption. }
  replace (sigma / omega * (omega * bf n Q u u)) with (sigma * bf n Q u u) in H by (field; lra).
  lra.
Qed.
Lemma Q1_psd : 0 <= sigma <= 1 -> psd n Q1.
Proof.
  intros [H0 H1] u. pose proof (Q1_lower u H1 H0). specialize (Hp u). nra.
Qed.
Lemma Q1_pd : 0 <= sigma < 1 -> pd n Q -> pd n Q1.
Proof.
  intros [H0 H1] H u Hu. pose proof (Q1_lower u (Rlt_le _ _ H1) H0). specialize (H u Hu). nra.
Qed.

Lemma step_keep b0 b1 z :
  step_ok (kappa * omega) b0 b1 rho sigma delta ->
  in_ell n Q kappa xc z ->
  (let a := dot n g (fun i => z i - xc i) in (a + b0) * (a + b1) <= 0) ->
  in_ell n Q1 (kappa * delta) xc1 z.
Proof.
  intros ([Hs0 Hs1] & Hd & Hr & Hid & Hflat) (w & Hz & Hw).
  replace (dot n g (fun i => z i - xc i)) with (bf n Q g w).
  2: { apply dot_ext; [reflexivity|]. intros i Hi. rewrite Hz by assumption. ring. }
  set (a := bf n Q g w). set (q := bf n Q w w) in *. cbn zeta. intros Hcut.
  set (T := kappa * omega) in *.
  assert (Hqa : a * a <= omega * q) by (apply cauchy; assumption).
  assert (HqT : omega * q <= T) by (unfold T; nra).
  destruct (Rle_lt_or_eq_dec _ _ Hs1) as [Hlt|Heq].
  - set (c := (rho + sigma * a) / (omega * (1 - sigma))).
    exists (fun i => w i + c * g i). split.
    + intros i Hi. rewrite Q1_mv, mvr_plus, mvr_scal, bf_plus_r, bf_scal_r.
      fold Qg omega a. unfold xc1. rewrite Hz by assumption.
      change (mvr n Q g i) with (Qg i).
      unfold c. field. split; lra.
    + rewrite Q1_bf, !bf_plus_r, !bf_plus_l, !bf_scal_r, !bf_scal_l.
      rewrite (bf_sym n Q w g Hs). fold omega a q.
      assert (E : q + c * a + c * (a + c * omega)
                  - sigma / omega * ((a + c * omega) * (a + c * omega))
                  = q + ((a + rho) * (a + rho) / (1 - sigma) - a * a) / omega).
      { unfold c. field. split; lra. }
      apply Rle_trans with (q + ((a + rho) * (a + rho) / (1 - sigma) - a * a) / omega); [lra|].
      apply Rmult_le_reg_r with (omega * (1 - sigma)); [nra|].
      replace ((q + ((a + rho) * (a + rho) / (1 - sigma) - a * a) / omega) * (omega * (1 - sigma)))
        with ((1 - sigma) * (omega * q) + (a + rho) * (a + rho) - (1 - sigma) * (a * a))
        by (field; split; lra).
      replace (kappa * delta * (omega * (1 - sigma))) with ((1 - sigma) * T * delta)
        by (unfold T; ring).
      assert (HqT' : (1 - sigma) * (omega * q) <= (1 - sigma) * T)
        by (apply Rmult_le_compat_l; lra).
      assert (Hsig : sigma * ((a + b0) * (a + b1)) <= 0) by nra.
      assert (Hexp : (a + rho) * (a + rho) - (1 - sigma) * (a * a) - (1 - sigma) * T * (delta - 1)
                     = sigma * ((a + b0) * (a + b1))).
      { replace ((a + rho) * (a + rho)) with (a * a + (2 * rho) * a + rho * rho) by ring.
        rewrite Hr. replace (rho * rho) with (sigma * b0 * b1 + (1 - sigma) * T * (delta - 1)) by lra.
        ring. }
      lra.
  - destruct (Hflat Heq) as [Hb HT]. rewrite Heq in *. subst b1.
    assert (Ea : a = - b0) by nra. assert (Er : rho = b0) by lra.
    exists w. split.
    + intros i Hi. rewrite Q1_mv. fold a. unfold xc1. rewrite Hz, Ea, Er, Heq by assumption.
      field. lra.
    + rewrite Q1_bf. fold a q. rewrite Heq, Ea.
      apply Rmult_le_reg_r with omega; [assumption|].
      replace ((q - 1 / omega * (- b0 * - b0)) * omega) with (omega * q - b0 * b0) by (field; lra).
      replace (kappa * delta * omega) with (T * delta) by (unfold T; ring). lra.
Qed.
End Step.

(** moving the factor delta from kappa to Q *)
Lemma in_ell_nodefer n Q kappa delta xc z :
  sym n Q -> psd n Q -> 0 <= kappa -> 0 <= delta ->
  in_ell n Q (kappa * delta) xc z -> in_ell n (fun i j => Q i j * delta) kappa xc z.
Proof.
  intros Hs Hp Hk Hd (w & Hz & Hw).
  destruct (Req_dec delta 0) as [E|E].
  - assert (bf n Q w w = 0) as H0 by (specialize (Hp w); rewrite E in Hw; lra).
    destruct (psd_null n Q w Hs Hp H0) as [_ Hm].
    exists (fun _ => 0). split.
    + intros i Hi. rewrite Hz, Hm by assumption. unfold mvr. rewrite dot_zero_r. reflexivity.
    + unfold bf. rewrite dot_comm, dot_zero_r. assumption.
  - exists (fun i => / delta * w i). split.
    + intros i Hi. rewrite mvr_scale, mvr_scal, Hz by assumption. field. assumption.
    + rewrite bf_scale, bf_scal_r, bf_scal_l.
      replace (delta * (/ delta * (/ delta * bf n Q w w))) with (bf n Q w w / delta)
        by (field; assumption).
      apply Rmult_le_reg_r with delta; [lra|].
      unfold Rdiv. rewrite Rmult_assoc, Rinv_l, Rmult_1_r by assumption. assumption.
Qed.

(** *** update as a whole *)

(** Which parameters a successful update may use for a given beta. *)
Definition step_for (e : ell R) (T : R) (beta : cut_beta R) (rho sigma delta : R) : Prop :=
  let N := IZR (Z.of_nat (e_n e)) in
  match beta with
  | BScalar b | BArr [b] => b <= sqrt T /\ dc_formula N T b rho sigma delta
  | BArr [] => False
  | BArr (b0 :: b1 :: _) =>
      (b0 <= sqrt T /\ dc_formula N T b0 rho sigma delta /\ (T < b1 * b1 \/ e_par e = false))
      \/ (par_formula N T b0 b1 rho sigma delta /\ e_par e = true)
  end.

Definition stop_for (e : ell R) (T : R) (beta : cut_beta R) (s : status) : Prop :=
  let N := IZR (Z.of_nat (e_n e)) in
  match beta, s with
  | (BScalar b | BArr [b]), nosoln => sqrt T < b
  | (BScalar b | BArr [b]), noeffect => sqrt T + N * b < 0
  | BArr (b0 :: b1 :: _), nosoln => sqrt T < b0 \/ b1 < b0
  | BArr (b0 :: b1 :: _), noeffect => sqrt T + N * b0 < 0 \/ N * (b0 * b1) < - T
  | _, _ => False
  end.

Lemma calc_ll_spec e T beta T' out :
  (2 <= e_n e)%nat -> ell_consts e -> 0 <= T ->
  calc_ll e T beta = Ok (T', out) ->
  T' = T /\ match out with
            | Stop s => stop_for e T beta s
            | Go rho sigma delta => step_for e T beta rho sigma delta
            end.
Proof.
  intros Hn Hc HT H. destruct beta as [b|[|b0 [|b1 bs]]]; cbn [calc_ll] in H.
  - apply calc_dc_spec in H as [-> H]; [|assumption..]. split; [reflexivity|].
    destruct out as [[]|]; cbn; try assumption; contradiction.
  - discriminate.
  - apply calc_dc_spec in H as [-> H]; [|assumption..]. split; [reflexivity|].
    destruct out as [[]|]; cbn; try assumption; contradiction.
  - apply calc_ll_core_spec in H as (-> & HT0 & H); [|assumption..]. split; [reflexivity|].
    destruct out as [[]|]; cbn; try assumption; contradiction.
Qed.

Definition new_Q (e : ell R) (g : nat -> R) (sigma : R) : nat -> nat -> R :=
  let Qg := mvr (e_n e) (e_Q e) g in
  fun i j => e_Q e i j - sigma / bf (e_n e) (e_Q e) g g * (Qg i * Qg j).
Definition new_xc (e : ell R) (xc g : nat -> R) (rho : R) : nat -> R :=
  fun i => if Nat.ltb i (e_n e)
           then xc i - rho / bf (e_n e) (e_Q e) g g * mvr (e_n e) (e_Q e) g i else xc i.
Definition new_e (e : ell R) (g : nat -> R) (sigma delta : R) : ell R :=
  if e_nodefer e then ell_set_Q e (fun i j => new_Q e g sigma i j * delta)
  else ell_set_kappa (ell_set_Q e (new_Q e g sigma)) (e_kappa e * delta).

Lemma ell_update_spec w e g beta w' e' s tsq :
  ell_wf e -> ell_update (w, e) (g, beta) = Ok ((w', e'), (s, tsq)) ->
  tsq = e_kappa e * bf (e_n e) (e_Q e) g g /\ 0 <= tsq /\
  ((w' = w /\ e' = e /\ stop_for e tsq beta s) \/
   (s = success /\ 0 < bf (e_n e) (e_Q e) g g /\
    exists rho sigma delta, step_for e tsq beta rho sigma delta /\
      w' = mem_set w (e_xc e) (new_xc e (w (e_xc e)) g rho) /\
      e' = new_e e g sigma delta)).
Proof.
  intros (Hn & Hc & Hs & Hp & Hk) H. cbn [ell_update] in H.
  change (ndot (e_n e) g (mv (e_n e) (e_Q e) g)) with (bf (e_n e) (e_Q e) g g) in H.
  change (mv (e_n e) (e_Q e) g) with (mvr (e_n e) (e_Q e) g) in H.
  set (om := bf (e_n e) (e_Q e) g g) in *.
  assert (0 <= om) as Hom by apply Hp.
  change (nmul (e_kappa e) om) with (e_kappa e * om) in H.
  assert (0 <= e_kappa e * om) as HT by (apply Rmult_le_pos; assumption).
  apply bind_ok in H as ([T' out] & Hcal & H).
  apply calc_ll_spec in Hcal as [-> Hcal]; try assumption.
  destruct out as [s'|rho sigma delta].
  - injection H as <- <- <- <-. split; [reflexivity|]. split; [assumption|]. left; auto.
  - apply bind_ok in H as (ro & Hro & H). apply rdiv_inv in Hro as [Hne ->].
    apply bind_ok in H as (so & Hso & H). apply rdiv_inv in Hso as [_ ->].
    injection H as <- <- <- <-. split; [reflexivity|]. split; [assumption|]. right.
    split; [reflexivity|]. split; [lra|]. exists rho, sigma, delta.
    split; [assumption|]. split; reflexivity.
Qed.

Lemma step_for_ok e T beta rho sigma delta :
  (2 <= e_n e)%nat -> 0 <= T -> step_for e T beta rho sigma delta ->
  exists b0 b1, step_ok T b0 b1 rho sigma delta /\
    forall a, a * a <= T ->
      match beta with
      | BScalar b | BArr [b] => a + b <= 0
      | BArr [] => True
      | BArr (b0 :: b1 :: _) => a + b0 <= 0 /\ 0 <= a + b1
      end -> (a + b0) * (a + b1) <= 0.
Proof.
  intros Hn HT H.
  assert (Hdc : forall b, b <= sqrt T -> dc_formula (IZR (Z.of_nat (e_n e))) T b rho sigma delta ->
     step_ok T b (sqrt T) rho sigma delta /\
     forall a, a * a <= T -> a + b <= 0 -> (a + b) * (a + sqrt T) <= 0).
  { intros b Hb HF. split; [eapply dc_formula_step_ok; eauto|].
    intros a Ha Hab. assert (- sqrt T <= a); [|nra].
    destruct (Rle_dec 0 a); [pose proof (sqrt_pos T); lra|].
    assert (- a <= sqrt T); [|lra].
    rewrite <- (sqrt_square (- a)) by lra. apply sqrt_le_1; nra. }
  destruct beta as [b|[|b0 [|b1 bs]]]; cbn in H.
  - destruct H as [Hb HF]. exists b, (sqrt T). apply Hdc; assumption.
  - contradiction.
  - destruct H as [Hb HF]. exists b0, (sqrt T). apply Hdc; assumption.
  - destruct H as [(Hb & HF & _)|(HF & _)].
    + exists b0, (sqrt T). destruct (Hdc b0 Hb HF) as [H1 H2]. split; [assumption|].
      intros a Ha [Ha0 _]. apply H2; assumption.
    + exists b0, b1. split; [eapply par_formula_step_ok; eauto|].
      intros a Ha [Ha0 Ha1]. nra.
Qed.

Lemma new_e_n e g sigma delta : e_n (new_e e g sigma delta) = e_n e.
Proof. unfold new_e; destruct (e_nodefer e); reflexivity. Qed.
Lemma new_e_xc e g sigma delta : e_xc (new_e e g sigma delta) = e_xc e.
Proof. unfold new_e; destruct (e_nodefer e); reflexivity. Qed.
Lemma new_e_consts e g sigma delta : ell_consts e -> ell_consts (new_e e g sigma delta).
Proof. unfold new_e; destruct (e_nodefer e); exact (fun H => H). Qed.

Lemma new_e_wf e g T b0 b1 rho sigma delta :
  ell_wf e -> 0 < bf (e_n e) (e_Q e) g g -> step_ok T b0 b1 rho sigma delta ->
  ell_wf (new_e e g sigma delta).
Proof.
  intros (Hn & Hc & Hs & Hp & Hk) Hom (Hsig & Hd & _).
  pose proof (new_e_consts e g sigma delta Hc) as Hc'.
  unfold ell_wf. rewrite new_e_n. split; [assumption|]. split; [assumption|].
  assert (S1 : sym (e_n e) (new_Q e g sigma)) by (apply Q1_sym; assumption).
  assert (P1 : psd (e_n e) (new_Q e g sigma)) by (apply Q1_psd; assumption).
  unfold new_e; destruct (e_nodefer e); cbn.
  - split; [|split; [|assumption]].
    + intros i j Hi Hj. rewrite (S1 i j) by assumption. reflexivity.
    + intros v. rewrite bf_scale. specialize (P1 v). nra.
  - split; [assumption|]. split; [assumption|]. nra.
Qed.

Lemma new_mem w e g T b0 b1 rho sigma delta z :
  ell_wf e -> 0 < bf (e_n e) (e_Q e) g g -> T = e_kappa e * bf (e_n e) (e_Q e) g g ->
  step_ok T b0 b1 rho sigma delta ->
  mem_ell (w, e) z ->
  (let a := dot (e_n e) g (fun i => z i - w (e_xc e) i) in (a + b0) * (a + b1) <= 0) ->
  mem_ell (mem_set w (e_xc e) (new_xc e (w (e_xc e)) g rho), new_e e g sigma delta) z.
Proof.
  intros (Hn & Hc & Hs & Hp & Hk) Hom HT Hst Hz Hcut.
  cbn [mem_ell]. rewrite new_e_xc, new_e_n. unfold mem_set. rewrite Nat.eqb_refl.
  assert (H1 : in_ell (e_n e) (new_Q e g sigma) (e_kappa e * delta)
                 (new_xc e (w (e_xc e)) g rho) z).
  { subst T. eapply in_ell_ext.
    5: { eapply step_keep; try eassumption. }
    - intros i j _ _; reflexivity.
    - reflexivity.
    - intros i Hi. unfold new_xc. destruct (Nat.ltb_spec i (e_n e)); [reflexivity|lia].
    - reflexivity. }
  unfold new_e; destruct (e_nodefer e); cbn; [|assumption].
  destruct Hst as (Hsig & Hd & _).
  apply in_ell_nodefer; try assumption; [apply Q1_sym|apply Q1_psd]; assumption.
Qed.

(** ell is a sound search space *)
Lemma ell_space_sound n :
  space_sound ell_space (fun st => st_wf st /\ e_n (snd st) = n) mem_ell (sat_cut n).
Proof.
  intros [w e] [g beta] [w' e'] s q [Hw Hn] H. cbn in Hn. subst n.
  unfold st_wf in *; cbn [snd] in *. cbn in H.
  apply ell_update_spec in H as (Eq & HT & H); [|assumption].
  destruct H as [(-> & -> & Hst) | (-> & Hom & rho & sigma & delta & Hst & -> & ->)].
  - split; [auto|].
    assert (Hr : forall z, mem_ell (w, e) z ->
       let a := dot (e_n e) g (fun i => z i - w (e_xc e) i) in - sqrt q <= a).
    { intros z Hz a. destruct Hw as (_ & _ & Hs & Hp & _).
      pose proof (in_ell_range _ _ _ _ _ g Hs Hp Hz) as Hra. cbn zeta in Hra.
      fold a in Hra. rewrite <- Eq in Hra.
      destruct (Rle_dec 0 a); [pose proof (sqrt_pos q); lra|].
      assert (- a <= sqrt q); [|lra].
      rewrite <- (sqrt_square (- a)) by lra. apply sqrt_le_1; nra. }
    unfold centre, sat_cut; cbn [ell_space sp_deref sp_xc fst snd].
    destruct beta as [b|[|b0 [|b1 bs]]]; destruct s; cbn in Hst |- *; try contradiction;
      try (intros z Hz; exact Hz); intros z Hz; specialize (Hr z Hz); cbn in Hr; lra.
  - destruct (step_for_ok e q beta rho sigma delta) as (b0 & b1 & Hok & Hslab); auto.
    { apply Hw. }
    split; [split; [eapply new_e_wf; eauto|apply new_e_n]|].
    intros z Hz Hsat. eapply new_mem; eauto. cbn zeta. apply Hslab.
    + destruct Hw as (_ & _ & Hs & Hp & _).
      rewrite Eq. eapply in_ell_range; eauto.
    + unfold sat_cut, centre in Hsat; cbn [ell_space sp_deref sp_xc fst snd] in Hsat.
      exact Hsat.
Qed.

(** a successful interior update keeps a proper ellipsoid proper *)
Lemma step_interior e T beta rho sigma delta :
  (2 <= e_n e)%nat -> 0 < T -> step_for e T beta rho sigma delta ->
  match beta with
  | BScalar b | BArr [b] => b < sqrt T
  | BArr [] => False
  | BArr (b0 :: b1 :: _) => b0 < sqrt T /\ b0 < b1 /\ - sqrt T < b1
  end ->
  sigma < 1 /\ 0 < delta.
Proof.
  intros Hn HT H Hin.
  assert (HN : 2 <= IZR (Z.of_nat (e_n e))) by (apply IZR_le; lia).
  set (N := IZR (Z.of_nat (e_n e))) in *.
  assert (Ht : 0 < sqrt T) by (apply sqrt_lt_R0; assumption).
  assert (Htt : sqrt T * sqrt T = T) by (apply sqrt_sqrt; lra).
  assert (HNN : 0 < N * N - 1) by nra.
  assert (Hdc : forall b, b < sqrt T -> dc_formula N T b rho sigma delta -> sigma < 1 /\ 0 < delta).
  { intros b Hb [(-> & -> & -> & ->)|(Hb0 & _ & Hg & -> & -> & ->)].
    - split.
      + apply Rmult_lt_reg_r with (N + 1); [lra|].
        replace (2 / (N + 1) * (N + 1)) with 2 by (field; lra). lra.
      + apply Rmult_lt_0_compat; [nra|]. apply Rinv_0_lt_compat; assumption.
    - assert (0 < sqrt T + b) by nra. split.
      + apply Rmult_lt_reg_r with ((N + 1) * (sqrt T + b)); [nra|].
        replace (2 * ((sqrt T + N * b) / (N + 1)) / (sqrt T + b) * ((N + 1) * (sqrt T + b)))
          with (2 * (sqrt T + N * b)) by (field; lra). nra.
      + apply Rmult_lt_0_compat.
        * apply Rmult_lt_0_compat; [nra|]. apply Rinv_0_lt_compat; assumption.
        * replace (1 - b * (b / T)) with ((T - b * b) / T) by (field; lra).
          apply Rmult_lt_0_compat; [nra|]. apply Rinv_0_lt_compat; assumption. }
  destruct beta as [b|[|b0 [|b1 bs]]]; cbn in H; fold N in H.
  - destruct H as [_ H]. exact (Hdc _ Hin H).
  - contradiction.
  - destruct H as [_ H]. exact (Hdc _ Hin H).
  - destruct Hin as (Hb0 & Hb01 & Hb1). destruct H as [(_ & HF & _)|(HF & _)]; [exact (Hdc _ Hb0 HF)|].
    pose proof (par_formula_step_ok e Hn _ _ _ _ _ _ HF) as ([Hs0 Hs1] & Hd & _ & _ & Hfl).
    split.
    + destruct (Rle_lt_or_eq_dec _ _ Hs1) as [|E]; [assumption|].
      destruct (Hfl E) as [Eb _]. lra.
    + destruct HF as (_ & _ & Hb1T & Hnp & Hsum & xi & Hxi & Exi & _ & Ed & _).
      fold N in Exi, Ed, Hnp.
      rewrite Ed. apply Rmult_lt_0_compat.
      { apply Rmult_lt_0_compat; [nra|]. apply Rinv_0_lt_compat; assumption. }
      set (t0 := 1 - b0 * b0 / T) in *. set (t1 := 1 - b1 * b1 / T) in *.
      assert (Ht0 : t0 * T = T - b0 * b0) by (unfold t0; field; lra).
      assert (Ht1 : t1 * T = T - b1 * b1) by (unfold t1; field; lra).
      set (X := xi / N). assert (EX : xi = N * X) by (unfold X; field; lra).
      assert (0 <= X) by (unfold X; apply Rmult_le_pos; [lra|left; apply Rinv_0_lt_compat; lra]).
      assert (Htemp : N / 2 * ((b0 + b1) / T) * (b1 - b0) = N / 2 * (t0 - t1)).
      { unfold t0, t1. field. lra. }
      rewrite Htemp in Exi.
      assert (Ht1pos : 0 <= t1) by nra.
      destruct (Rlt_dec 0 (t0 + t1)) as [L|L]; [lra|].
      assert (Ht0n : t0 <= 0) by lra.
      assert (EX2 : N * N * (X * X) = t0 * t1 * (1 - N * N) + N * N * ((t0 + t1) / 2 * ((t0 + t1) / 2)) ).
      { transitivity (xi * xi); [rewrite EX; ring|]. rewrite Exi. field. }
      destruct (Req_dec (t0 * t1) 0) as [E0|E0].
      * (* t0 = 0 or t1 = 0 *)
        destruct (Rmult_integral _ _ E0) as [E1|E1].
        -- (* t0 = 0 => t1 <= 0 => t1 = 0: b0^2 = b1^2 = T, excluded *)
           exfalso. assert (t1 = 0) as E2 by lra. rewrite E1 in Ht0. rewrite E2 in Ht1.
           assert (b0 * b0 = T) by lra. assert (b1 * b1 = T) by lra.
           assert ((b0 - b1) * (b0 + b1) = 0) as E3 by nra.
           destruct (Rmult_integral _ _ E3); lra.
        -- exfalso. rewrite E1 in Ht1. assert (b1 * b1 = T) as E2 by lra.
           assert ((b1 - sqrt T) * (b1 + sqrt T) = 0) as E3 by nra.
           destruct (Rmult_integral _ _ E3) as [E4|E4]; [|lra].
           assert (b1 = sqrt T) by lra. subst b1.
           assert (- sqrt T <= N * b0) by nra.
           assert (t0 * T <= 0) by nra. nra.
      * assert (t0 * t1 < 0) by nra.
        assert ((t0 + t1) / 2 * ((t0 + t1) / 2) < X * X) as Hlt.
        { apply Rmult_lt_reg_l with (N * N); [nra|]. rewrite EX2.
          assert (0 < t0 * t1 * (1 - N * N)) by nra. lra. }
        assert (- ((t0 + t1) / 2) < X); [|unfold X in *; lra].
        apply Rsqr_incrst_0; unfold Rsqr; lra.
Qed.

Lemma ell_update_proper w e g beta w' e' tsq :
  ell_proper e -> nonzero (e_n e) g ->
  ell_update (w, e) (g, beta) = Ok ((w', e'), (success, tsq)) ->
  match beta with
  | BScalar b | BArr [b] => b < sqrt tsq
  | BArr [] => False
  | BArr (b0 :: b1 :: _) => b0 < sqrt tsq /\ b0 < b1 /\ - sqrt tsq < b1
  end -> ell_proper e'.
Proof.
  intros (Hw & Hpd & Hk) Hg H Hin.
  apply ell_update_spec in H as (Eq & HT & H); [|assumption].
  destruct H as [(-> & -> & Hst) | (_ & Hom & rho & sigma & delta & Hst & -> & ->)].
  { destruct beta as [b|[|b0 [|b1 bs]]]; cbn in Hst; contradiction. }
  assert (0 < tsq) as HT0 by (rewrite Eq; apply Rmult_lt_0_compat; assumption).
  destruct (step_interior e tsq beta rho sigma delta) as [Hs Hd]; auto; [apply Hw|].
  destruct (step_for_ok e tsq beta rho sigma delta) as (b0 & b1 & Hok & _); auto; [apply Hw|].
  pose proof (new_e_wf e g _ _ _ _ _ _ Hw Hom Hok) as Hw'.
  destruct Hok as ([Hs0 _] & _).
  destruct Hw as (Hn & Hc & Hsy & Hp & _).
  assert (P1 : pd (e_n e) (new_Q e g sigma)) by (apply Q1_pd; auto).
  split; [assumption|]. rewrite new_e_n.
  unfold new_e; destruct (e_nodefer e); cbn.
  - split; [|assumption]. intros v Hv. rewrite bf_scale. specialize (P1 v Hv). nra.
  - split; [assumption|]. nra.
Qed.
