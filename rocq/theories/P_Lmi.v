(** Proofs for the matrix inequality oracles. *)
From Coq Require Import Reals Lra Psatz.
From Verif Require Import Base M_Chol M_Ell M_Lmi S_LinAlg P_LinAlg S_Lmi P_Chol P_Chol2.
Local Open Scope R_scope.

Lemma lin_sum_ok (F : list (nat -> nat -> R)) x i j :
  lin_sum F (length F) x i j = Ok (lin_mat F x i j).
Proof.
  unfold lin_sum. rewrite Nat.leb_refl. rewrite psum_rsum. reflexivity.
Qed.

Lemma all_sym_nth m F k : all_sym m F -> (k < length F)%nat -> sym m (nth k F (fun _ _ => 0)).
Proof. intros H Hk. apply H. apply nth_In. assumption. Qed.
Lemma lin_mat_sym m F x : all_sym m F -> sym m (lin_mat F x).
Proof.
  intros H i j Hi Hj. apply rsum_ext. intros k Hk. rewrite (all_sym_nth m F k H Hk i j Hi Hj). reflexivity.
Qed.
Lemma aff_mat_sym m B F x : sym m B -> all_sym m F -> sym m (aff_mat B F x).
Proof. intros HB H i j Hi Hj. unfold aff_mat. rewrite HB, (lin_mat_sym m F x H) by assumption. reflexivity. Qed.
Lemma qmi_mat_sym m rows F0 F t x : sym m (qmi_mat rows F0 F t x).
Proof.
  intros i j _ _. unfold qmi_mat. rewrite (Nat.eqb_sym j i). f_equal. apply rsum_ext. intros; ring.
Qed.

(** quadratic forms of linear matrix functions *)
Lemma bf_lin_mat m s F x v :
  bf m (blk (lin_mat F x) s) v v = rsum (length F) (fun k => bf m (blk (nth k F (fun _ _ => 0)) s) v v * x k).
Proof.
  rewrite bf_sums.
  transitivity (rsum m (fun i => rsum (length F) (fun k =>
     rsum m (fun j => v i * blk (nth k F (fun _ _ => 0)) s i j * v j * x k)))).
  { apply rsum_ext. intros i _. rewrite (rsum_exchange (length F)). apply rsum_ext. intros j _.
    unfold blk, lin_mat. rewrite <- rsum_scal_l, <- rsum_scal_r. apply rsum_ext. intros; ring. }
  rewrite rsum_exchange. apply rsum_ext. intros k _. rewrite bf_sums.
  rewrite <- rsum_scal_r. apply rsum_ext. intros i _. rewrite <- rsum_scal_r. reflexivity.
Qed.
Lemma bf_aff_mat m s B F x v :
  bf m (blk (aff_mat B F x) s) v v =
  bf m (blk B s) v v - rsum (length F) (fun k => bf m (blk (nth k F (fun _ _ => 0)) s) v v * x k).
Proof.
  rewrite <- bf_lin_mat. rewrite !bf_sums. rewrite <- rsum_minus. apply rsum_ext. intros i _.
  rewrite <- rsum_minus. apply rsum_ext. intros j _. unfold blk, aff_mat. ring.
Qed.

Lemma psd_blk n s m M v : (s + m <= n)%nat -> psd n M -> 0 <= bf m (blk M s) v v.
Proof. intros H Hp. rewrite <- (bf_zext n s m M v H). apply Hp. Qed.

(** the chol_ext object of an oracle *)
Definition chol_for (m : nat) (Q : chol R) : Prop := c_n Q = m /\ c_semi Q = false.

Lemma chol_factor_keep {G} (getA : G -> nat -> nat -> res (G * R)) g (Q : chol R) g' Q' b m :
  chol_for m Q -> chol_factor getA g Q = Ok (g', Q', b) -> chol_for m Q'.
Proof.
  unfold chol_factor. intros Hm H. apply bind_ok in H as ([[g1 T] p] & _ & H).
  injection H as <- <- <-. exact Hm.
Qed.

Section LMI.
Variables (m : nat) (F : list (nat -> nat -> R)) (B : nat -> nat -> R).
Hypothesis HF : all_sym m F.

(** one lemma for lmi, lmi_old and lmi0: any callback whose answers are those of M(x) *)
Lemma lmi_core (getA : unit -> nat -> nat -> res (unit * R)) (M : nat -> nat -> R) Q :
  chol_for m Q -> sym m M -> (forall g i j, getA g i j = Ok (tt, M i j)) ->
  exists Q1 b, chol_factor getA tt Q = Ok (tt, Q1, b) /\ chol_for m Q1 /\
    (b = true <-> pd m M) /\
    (b = false -> exists Q2 ep s e, chol_witness Q1 = Ok (Q2, ep) /\ chol_for m Q2 /\ 0 <= ep /\
       (s < e <= m)%nat /\ c_p Q2 = (s, e) /\ c_v Q2 (e - 1)%nat = 1 /\
       bf (e - s) (blk M s) (fun k => c_v Q2 (s + k)%nat) (fun k => c_v Q2 (s + k)%nat) = - ep /\
       forall M', chol_sym_quad Q2 M' =
          bf (e - s) (blk M' s) (fun k => c_v Q2 (s + k)%nat) (fun k => c_v Q2 (s + k)%nat)).
Proof.
  intros [Hn Hse] Hs Hg.
  assert (Hget : getter (c_n Q) M (fun _ _ => True) getA).
  { intros [] i j _ _ _. exists tt. rewrite Hg. auto. }
  rewrite <- Hn in Hs.
  destruct (chol_factor_pd M _ getA Q tt Hget I Hs Hse) as ([] & Q1 & b & Hf & Hb).
  exists Q1, b. split; [assumption|]. split; [eapply chol_factor_keep; [split|]; eassumption|].
  split; [rewrite <- Hn; assumption|]. intros ->.
  destruct (chol_failed_witness M _ getA Q tt tt Q1 Hget I Hs Hf)
    as (Q2 & ep & s & e & Hw & P1 & P2 & _ & Pse & P3 & P4 & _ & _ & P5 & _ & P6 & P7).
  destruct (chol_factor_keep _ _ _ _ _ _ m (conj Hn Hse) Hf) as [Hn1 Hse1].
  exists Q2, ep, s, e. split; [assumption|]. split; [split; congruence|]. split; [assumption|].
  split; [lia|]. split; [congruence|]. split; [assumption|]. split; [exact P7|].
  intros M'. rewrite sym_quad_bf, P1, P3. reflexivity.
Qed.

Lemma lmi_call_spec Q x : sym m B -> chol_for m Q ->
  exists Q' c, lmi_call F B (length F) Q x = Ok (Q', c) /\ chol_for m Q' /\
    (c = None <-> pd m (aff_mat B F x)) /\
    forall g ep, c = Some (g, ep) -> 0 <= ep /\
      forall z, psd m (aff_mat B F z) -> dot (length F) g (fun i => z i - x i) + ep <= 0.
Proof.
  intros HB HQ.
  destruct (lmi_core (lmi_getA F B (length F) x) (aff_mat B F x) Q HQ (aff_mat_sym m B F x HB HF))
    as (Q1 & b & Hf & HQ1 & Hb & Hc).
  { intros [] i j. unfold lmi_getA. rewrite lin_sum_ok. reflexivity. }
  unfold lmi_call. rewrite Hf. cbn [bind]. destruct b.
  - exists Q1, None. split; [reflexivity|]. split; [assumption|]. split; [|discriminate].
    split; [intros _; apply Hb; reflexivity|reflexivity].
  - destruct Hc as (Q2 & ep & s & e & -> & HQ2 & Hep & Hse & Hp & Hv & Hq & Hsq); [reflexivity|].
    cbn [bind]. eexists _, _. split; [reflexivity|]. split; [assumption|]. split.
    + split; [discriminate|]. intros Hpd. apply Hb in Hpd. discriminate.
    + intros g ep' E. injection E as <- <-. split; [assumption|].
      intros z Hz. apply (psd_blk m s (e - s) _ (fun k => c_v Q2 (s + k)%nat)) in Hz; [|lia].
      rewrite bf_aff_mat in Hz, Hq. unfold dot.
      rewrite (rsum_ext _ _ (fun k => bf (e - s) (blk (nth k F (fun _ _ => 0)) s)
          (fun k => c_v Q2 (s + k)%nat) (fun k => c_v Q2 (s + k)%nat) * z k -
          bf (e - s) (blk (nth k F (fun _ _ => 0)) s)
          (fun k => c_v Q2 (s + k)%nat) (fun k => c_v Q2 (s + k)%nat) * x k)).
      * rewrite rsum_minus. lra.
      * intros k Hk. rewrite Hsq. change (nf F k) with (nth k F (fun _ _ => 0)). ring.
Qed.

Lemma lmi0_call_spec Q x : chol_for m Q ->
  exists Q' c, lmi0_call F (length F) Q x = Ok (Q', c) /\ chol_for m Q' /\
    (c = None <-> pd m (lin_mat F x)) /\
    forall g ep, c = Some (g, ep) -> 0 <= ep /\
      forall z, psd m (lin_mat F z) -> dot (length F) g (fun i => z i - x i) + ep <= 0.
Proof.
  intros HQ.
  destruct (lmi_core (lmi0_getA F (length F) x) (lin_mat F x) Q HQ (lin_mat_sym m F x HF))
    as (Q1 & b & Hf & HQ1 & Hb & Hc).
  { intros [] i j. unfold lmi0_getA. rewrite lin_sum_ok. reflexivity. }
  unfold lmi0_call. rewrite Hf. cbn [bind]. destruct b.
  - exists Q1, None. split; [reflexivity|]. split; [assumption|]. split; [|discriminate].
    split; [intros _; apply Hb; reflexivity|reflexivity].
  - destruct Hc as (Q2 & ep & s & e & -> & HQ2 & Hep & Hse & Hp & Hv & Hq & Hsq); [reflexivity|].
    cbn [bind]. eexists _, _. split; [reflexivity|]. split; [assumption|]. split.
    + split; [discriminate|]. intros Hpd. apply Hb in Hpd. discriminate.
    + intros g ep' E. injection E as <- <-. split; [assumption|].
      intros z Hz. apply (psd_blk m s (e - s) _ (fun k => c_v Q2 (s + k)%nat)) in Hz; [|lia].
      rewrite bf_lin_mat in Hz, Hq. unfold dot.
      rewrite (rsum_ext _ _ (fun k => bf (e - s) (blk (nth k F (fun _ _ => 0)) s)
          (fun k => c_v Q2 (s + k)%nat) (fun k => c_v Q2 (s + k)%nat) * x k -
          bf (e - s) (blk (nth k F (fun _ _ => 0)) s)
          (fun k => c_v Q2 (s + k)%nat) (fun k => c_v Q2 (s + k)%nat) * z k)).
      * rewrite rsum_minus. lra.
      * intros k Hk. rewrite Hsq. change (nf F k) with (nth k F (fun _ _ => 0)). cbn [nopp RNum]. ring.
Qed.
End LMI.

(** *** lmi_old is lmi, in every arithmetic *)
Section LawFree.
Context {A : Type} `{NE : NdotExt A}.

Definition same_answer (r r' : res (chol A * option (gcut A))) : Prop :=
  match r, r' with
  | Ok (_, None), Ok (_, None) => True
  | Ok (_, Some (g, ep)), Ok (_, Some (g', ep')) => ep = ep' /\ forall k, g k = g' k
  | Raise e, Raise e' => e = e'
  | _, _ => False
  end.

Lemma old_same (F : list (nat -> nat -> A)) B nx (Q Q' : chol A) x :
  c_n Q = c_n Q' -> c_semi Q = c_semi Q' -> (nx <= length F)%nat ->
  same_answer (lmi_call F B nx Q x) (lmi_old_call F B nx Q' x).
Proof.
  intros En Es Hx.
  unfold lmi_call, lmi_old_call, lmi_old_matrix, chol_factorize.
  destruct (Nat.leb_spec nx (length F)); [|lia]. cbn [bind].
  match goal with |- context [chol_factor (pure_getA ?M) tt Q'] => set (M0 := M) end.
  pose proof (factor_agree (lmi_getA F B nx x) (pure_getA M0) (c_n Q) tt Q Q' En Es) as Hf.
  assert (Hg : forall (g : unit) i j, (j <= i)%nat -> (i < c_n Q)%nat ->
     lmi_getA F B nx x g i j = pure_getA M0 g i j).
  { intros [] i j _ _. unfold lmi_getA, lin_sum, pure_getA, M0.
    destruct (Nat.leb_spec nx (length F)); [reflexivity|lia]. }
  specialize (Hf Hg).
  destruct (chol_factor (lmi_getA F B nx x) tt Q) as [[[g1 Q1] b]|e] eqn:Ef; cbn [bind].
  - pose proof (factor_p_lt _ _ _ _ _ _ Ef) as [Hb Hp].
    destruct Hf as (Q1' & -> & Hso).
    { unfold rows_used. destruct (Nat.eqb_spec (snd (c_p Q1)) 0); lia. }
    cbn [bind]. destruct b; [exact I|].
    unfold chol_is_spd in Hb. symmetry in Hb. apply Nat.eqb_neq in Hb.
    destruct (witness_agree _ _ Q1 Q1' Hso Hb) as (Qa & Qb & ep & -> & -> & _ & _ & _ & H6); [lia|].
    cbn [bind]. split; [reflexivity|]. intros k. apply H6.
  - rewrite (Hf (le_n _)). cbn [bind]. reflexivity.
Qed.
End LawFree.

(** *** QMI *)
Section QMI.
Variables (rows cols : nat) (F : list (nat -> nat -> R)) (F0 : nat -> nat -> R) (t : R) (x : nat -> R).

(** the row cache of an evaluation at x: rows below k hold columns of F(x) *)
Definition cache_ok (k : nat) (q : qmi R) : Prop :=
  q_t q = Some t /\ q_count q = k /\
  forall i r, (i < k)%nat -> q_Fx q i r = aff_mat F0 F x r i.

Lemma qmi_getter : getter cols (qmi_mat rows F0 F t x) cache_ok
  (fun q i j => qmi_eval F F0 rows (length F) q i j x).
Proof.
  intros q i j Hj Hi Hq. unfold qmi_eval.
  destruct (Nat.ltb_spec i j); [lia|].
  assert (exists q1, (if (q_count q <? i + 1)%nat then
             if (length F <=? length F)%nat
             then Ok (mk_qmi (q_t q) (i + 1)
                        (rowset (q_Fx q) i
                           (fun r => nsub (F0 r i) (psum (length F) (fun k => nmul (nf F k r i) (x k))))))
             else Raise IndexError
           else Ok q) = Ok q1 /\ cache_ok (S i) q1) as (q1 & -> & Hc).
  { destruct Hq as [(Ht & Hc & Hr)|(Ht & Hc & Hr)]; rewrite Hc.
    - destruct (Nat.ltb_spec i (i + 1)); [|lia]. rewrite Nat.leb_refl. eexists. split; [reflexivity|].
      split; [assumption|]. split; [cbn; lia|]. intros a r Ha. cbn [q_Fx]. unfold rowset.
      destruct (Nat.eqb_spec a i) as [->|Hne].
      + rewrite psum_rsum. reflexivity.
      + apply Hr. lia.
    - destruct (Nat.ltb_spec (S i) (i + 1)); [lia|]. eexists. split; [reflexivity|].
      split; [assumption|]. split; [assumption|assumption]. }
  cbn [bind]. destruct Hc as (Ht & Hcn & Hr). rewrite Ht.
  assert (Ed : ndot rows (q_Fx q1 i) (q_Fx q1 j) =
               rsum rows (fun r => aff_mat F0 F x r i * aff_mat F0 F x r j)).
  { cbn [ndot RNum]. apply rsum_ext. intros r _. rewrite !Hr by lia. reflexivity. }
  rewrite Ed. unfold qmi_mat.
  destruct (Nat.eqb_spec i j); (eexists; split; [|split; [exact Ht|split; assumption]]);
    f_equal; f_equal; cbn; ring.
Qed.
End QMI.

(** F(x) v for the vector v supported on the block *)
Definition Fv (s m : nat) (M : nat -> nat -> R) (v : nat -> R) (r : nat) : R :=
  rsum m (fun i => M r (s + i)%nat * v i).

Lemma bf_qmi_mat rows F0 F t x s m v :
  bf m (blk (qmi_mat rows F0 F t x) s) v v =
  t * dot m v v - rsum rows (fun r => Fv s m (aff_mat F0 F x) v r * Fv s m (aff_mat F0 F x) v r).
Proof.
  set (M := aff_mat F0 F x). rewrite bf_sums.
  transitivity (rsum m (fun i => t * (v i * v i) -
     rsum rows (fun r => rsum m (fun j => (M r (s + i)%nat * v i) * (M r (s + j)%nat * v j))))).
  { apply rsum_ext. intros i Hi. rewrite (rsum_exchange rows).
    transitivity (rsum m (fun j => (if (i =? j)%nat then t * (v i * v i) else 0) -
        rsum rows (fun r => M r (s + i)%nat * v i * (M r (s + j)%nat * v j)))).
    - apply rsum_ext. intros j _. unfold blk, qmi_mat. fold M.
      destruct (Nat.eqb_spec (s + i) (s + j)), (Nat.eqb_spec i j); try lia.
      + subst j. rewrite Rmult_minus_distr_l, Rmult_minus_distr_r.
        rewrite <- rsum_scal_l, <- rsum_scal_r. f_equal; [ring|]. apply rsum_ext. intros; ring.
      + rewrite Rmult_minus_distr_l, Rmult_minus_distr_r.
        rewrite <- rsum_scal_l, <- rsum_scal_r. f_equal; [ring|]. apply rsum_ext. intros; ring.
    - rewrite rsum_minus. f_equal.
      rewrite (rsum_single m i); [rewrite Nat.eqb_refl; reflexivity|assumption|].
      intros k _ Hk. destruct (Nat.eqb_spec i k); [congruence|reflexivity]. }
  rewrite rsum_minus, rsum_scal_l. unfold dot. f_equal.
  rewrite rsum_exchange. apply rsum_ext. intros r _. unfold Fv.
  rewrite <- rsum_scal_r. apply rsum_ext. intros i _. rewrite <- rsum_scal_l. reflexivity.
Qed.

Lemma Fv_aff s m F0 F x v r :
  Fv s m (aff_mat F0 F x) v r =
  Fv s m F0 v r - rsum (length F) (fun k => Fv s m (nth k F (fun _ _ => 0)) v r * x k).
Proof.
  unfold Fv. rewrite (rsum_ext m _ (fun i => F0 r (s + i)%nat * v i -
     rsum (length F) (fun k => nth k F (fun _ _ => 0) r (s + i)%nat * v i * x k))).
  - rewrite rsum_minus. f_equal. rewrite rsum_exchange. apply rsum_ext. intros k _.
    rewrite rsum_scal_r. reflexivity.
  - intros i _. unfold aff_mat, lin_mat. rewrite Rmult_minus_distr_r, <- rsum_scal_r.
    f_equal. apply rsum_ext. intros; ring.
Qed.

(** |a - d|^2 >= |a|^2 - 2 a.d *)
Lemma sq_lower n a d :
  rsum n (fun r => a r * a r) - 2 * rsum n (fun r => a r * d r) <= rsum n (fun r => (a r - d r) * (a r - d r)).
Proof.
  rewrite <- rsum_scal_l, <- rsum_minus. apply rsum_le. intros r _.
  assert (0 <= d r * d r) by apply Rle_0_sqr. lra.
Qed.

Section QMICall.
Variables (rows cols : nat) (F : list (nat -> nat -> R)) (F0 : nat -> nat -> R).

Lemma qmi_call_spec q Q x t : q_t q = Some t -> chol_for cols Q ->
  (F = [] \/ rows = cols) ->
  exists q' Q' c, qmi_call F F0 rows cols (length F) q Q x = Ok (q', Q', c) /\
    q_t q' = Some t /\ chol_for cols Q' /\
    (c = None <-> pd cols (qmi_mat rows F0 F t x)) /\
    (forall g ep, c = Some (g, ep) -> 0 <= ep /\ exists s e v,
       (s < e <= cols)%nat /\ c_p Q' = (s, e) /\ (forall k, v k = c_v Q' (s + k)%nat) /\
       v (e - 1 - s)%nat = 1 /\
       bf (e - s) (blk (qmi_mat rows F0 F t x) s) v v = - ep /\
       forall k, g k = -2 * rsum rows (fun r =>
          rsum (e - s) (fun i => v i * nth k F (fun _ _ => 0) (s + i)%nat r) *
          Fv s (e - s) (aff_mat F0 F x) v r)).
Proof.
  intros Ht [Hn Hse] Hsq. unfold qmi_call, gmi_call.
  set (q0 := mk_qmi (q_t q) 0 (q_Fx q)).
  set (getA := fun (q : qmi R) i j => qmi_eval F F0 rows (length F) q i j x).
  pose proof (qmi_getter rows cols F F0 t x) as Hget. fold getA in Hget.
  rewrite <- Hn in Hget.
  assert (Hc0 : cache_ok F F0 t x 0 q0).
  { split; [exact Ht|]. split; [reflexivity|]. intros; lia. }
  pose proof (qmi_mat_sym (c_n Q) rows F0 F t x) as Hs.
  destruct (chol_factor_pd _ _ getA Q q0 Hget Hc0 Hs Hse) as (q1 & Q1 & b & Hf & Hb).
  destruct (chol_factor_spec _ _ getA Q Hget q0 Hc0) as (q1' & Q1' & b' & Hf' & _ & _ & _ & Hsp).
  rewrite Hf in Hf'. injection Hf' as <- <- <-.
  rewrite Hf. cbn [bind]. destruct b; cbn [negb].
  - exists q1, Q1, None. split; [reflexivity|].
    split; [apply Hsp|]. split; [eapply chol_factor_keep; [split|]; eassumption|].
    split; [|discriminate]. rewrite <- Hn. split; [intros _; apply Hb; reflexivity|reflexivity].
  - destruct (chol_failed_witness _ _ getA Q q0 q1 Q1 Hget Hc0 Hs Hf)
      as (Q2 & ep & s & e & Hw & P1 & P2 & _ & Pse & P3 & P4 & _ & Pc & P5 & _ & P6 & P7).
    destruct (chol_factor_keep _ _ _ _ _ _ cols (conj Hn Hse) Hf) as [Hn1 Hse1].
    rewrite Hw. cbn [bind]. unfold qmi_grad. rewrite P1, P3.
    assert (E : orb (length F =? 0)%nat (rows =? cols)%nat = true).
    { apply orb_true_iff. destruct Hsq as [->| ->]; [left; reflexivity|right; apply Nat.eqb_refl]. }
    rewrite E. cbn [bind]. destruct Pc as (Pt & Pcount & Pr).
    eexists q1, Q2, _. split; [reflexivity|]. split; [assumption|]. split; [split; congruence|].
    split. { split; [discriminate|]. intros Hpd. rewrite <- Hn in Hpd. apply Hb in Hpd. discriminate. }
    intros g ep' Eg. injection Eg as <- <-. split; [assumption|].
    exists s, e, (fun k => c_v Q2 (s + k)%nat). split; [lia|]. split; [congruence|].
    split; [reflexivity|]. split; [replace (s + (e - 1 - s))%nat with (e - 1)%nat by lia; assumption|].
    split; [exact P7|]. intros k. change (@nofZ R RNum (-2)) with (-2). cbn [nmul RNum]. f_equal.
    cbn [ndot]. apply rsum_ext. intros r Hr. f_equal.
    unfold Fv. apply rsum_ext. intros i Hi. rewrite Pr by lia. ring.
Qed.

(** the cut computed from symmetric F_k is valid; stated for the lifted variable (z, t') *)
Lemma qmi_cut_lift s e v g ep x t : (s < e <= cols)%nat -> rows = cols -> all_sym cols F ->
  bf (e - s) (blk (qmi_mat rows F0 F t x) s) v v = - ep ->
  (forall k, g k = -2 * rsum rows (fun r =>
          rsum (e - s) (fun i => v i * nth k F (fun _ _ => 0) (s + i)%nat r) *
          Fv s (e - s) (aff_mat F0 F x) v r)) ->
  forall z t', psd cols (qmi_mat rows F0 F t' z) ->
    dot (length F) g (fun i => z i - x i) - dot (e - s) v v * (t' - t) + ep <= 0.
Proof.
  intros Hse Hrc HF Hep Hg z t' Hz.
  apply (psd_blk cols s (e - s) _ v) in Hz; [|lia].
  rewrite bf_qmi_mat in Hz, Hep.
  set (a := fun r => Fv s (e - s) (aff_mat F0 F x) v r) in *.
  set (d := fun r => rsum (length F) (fun k => Fv s (e - s) (nth k F (fun _ _ => 0)) v r * (z k - x k))).
  assert (Hzr : forall r, Fv s (e - s) (aff_mat F0 F z) v r = a r - d r).
  { intros r. unfold a, d. rewrite !Fv_aff.
    rewrite (rsum_ext (length F) (fun k => Fv s (e - s) (nth k F (fun _ _ => 0)) v r * (z k - x k))
      (fun k => Fv s (e - s) (nth k F (fun _ _ => 0)) v r * z k - Fv s (e - s) (nth k F (fun _ _ => 0)) v r * x k))
      by (intros; ring).
    rewrite rsum_minus. ring. }
  rewrite (rsum_ext rows (fun r => Fv s (e - s) (aff_mat F0 F z) v r * Fv s (e - s) (aff_mat F0 F z) v r)
             (fun r => (a r - d r) * (a r - d r))) in Hz by (intros; rewrite !Hzr; reflexivity).
  pose proof (sq_lower rows a d) as Hsq.
  assert (Hgz : dot (length F) g (fun i => z i - x i) = - 2 * rsum rows (fun r => a r * d r)).
  { unfold dot. rewrite (rsum_ext (length F) _ (fun k => -2 * (rsum rows (fun r =>
       a r * (Fv s (e - s) (nth k F (fun _ _ => 0)) v r * (z k - x k)))))).
    - rewrite rsum_scal_l. f_equal. rewrite rsum_exchange. apply rsum_ext. intros r _.
      unfold d. rewrite <- rsum_scal_l. reflexivity.
    - intros k Hk. rewrite Hg. rewrite Rmult_assoc, <- rsum_scal_r. f_equal. apply rsum_ext. intros r Hr.
      unfold a. rewrite (rsum_ext (e - s) (fun i => v i * nth k F (fun _ _ => 0) (s + i)%nat r)
                    (fun i => nth k F (fun _ _ => 0) r (s + i)%nat * v i)).
      + unfold Fv. ring.
      + intros i Hi. rewrite (all_sym_nth cols F k HF Hk (s + i)%nat r) by lia. ring. }
  unfold dot in *. rewrite Hgz. lra.
Qed.
End QMICall.
