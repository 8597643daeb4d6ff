(** Proofs about the low-pass filter oracles. *)
From Coq Require Import Reals Lra.
From Verif Require Import Base S_LinAlg P_LinAlg M_Drivers M_Ell S_Ell P_EllCalc P_Ell M_Lowpass S_Lowpass.
Local Open Scope R_scope.

Lemma round_robin_in i N k : (i <= N)%nat -> In k (round_robin i N) <-> (k < N)%nat.
Proof. intros Hi. unfold round_robin. rewrite in_app_iff, !in_seq. lia. Qed.

Lemma dot_vopp n a x : dot n (vopp a) x = - dot n a x.
Proof. unfold dot. rewrite <- rsum_opp. apply rsum_ext. intros; unfold vopp; cbn; ring. Qed.
Lemma dot_diff n a z x : dot n a (fun i => z i - x i) = dot n a z - dot n a x.
Proof. unfold dot. rewrite <- rsum_minus. apply rsum_ext. intros; ring. Qed.

Section LP.
Variable P : lowpass R.
Notation n := (lp_n P).
Notation Ap := (lp_Ap P). Notation As := (lp_As P). Notation Anr := (lp_Anr P).
Notation dp := (dot n).

Lemma pass_loop_spec x : forall ks, (forall k, In k ks -> (k < lp_Np P)%nat) ->
  exists r, pass_loop P ks x = Ok r /\
    match r with
    | None => forall k, In k ks -> lp_Lpsq P <= dp (Ap k) x <= lp_Upsq P
    | Some (k, c) => In k ks /\
        ((lp_Upsq P < dp (Ap k) x /\ c = (Ap k, BArr [dp (Ap k) x - lp_Upsq P; dp (Ap k) x - lp_Lpsq P])) \/
         (dp (Ap k) x < lp_Lpsq P /\
          c = (vopp (Ap k), BArr [- dp (Ap k) x + lp_Lpsq P; - dp (Ap k) x + lp_Upsq P])))
    end.
Proof.
  induction ks as [|k ks IH]; intros Hks; cbn [pass_loop].
  - exists None. split; [reflexivity|]. intros k [].
  - assert (Hk : (k < lp_Np P)%nat) by (apply Hks; left; reflexivity).
    unfold row. rewrite (proj2 (Nat.ltb_lt _ _) Hk). cbn [bind].
    change (ndot n (Ap k) x) with (dp (Ap k) x). change (nltb (A := R)) with Rltb.
    destruct (Rltb (lp_Upsq P) _) eqn:B1; [apply Rltb_true in B1|apply Rltb_false in B1].
    { eexists; split; [reflexivity|]. split; [left; reflexivity|]. left. split; [exact B1|reflexivity]. }
    destruct (Rltb (dp (Ap k) x) _) eqn:B2; [apply Rltb_true in B2|apply Rltb_false in B2].
    { eexists; split; [reflexivity|]. split; [left; reflexivity|]. right. split; [exact B2|reflexivity]. }
    destruct (IH ltac:(intros j Hj; apply Hks; right; exact Hj)) as (r & -> & Hr). exists r. split; [reflexivity|].
    destruct r as [[j c]|].
    + destruct Hr as [Hj Hr]. split; [right; exact Hj|exact Hr].
    + intros j [<-|Hj]; [lra|auto].
Qed.

Lemma stop_loop_spec x S : forall ks fm im, (forall k, In k ks -> (k < lp_Ns P)%nat) ->
  exists r, stop_loop P ks x S fm im = Ok r /\
    match r with
    | inr (fm', im') => (forall k, In k ks -> 0 <= dp (As k) x <= S) /\
        ((fm' = fm /\ im' = im /\ forall k, In k ks -> exists m, fm = Some m /\ dp (As k) x <= m) \/
         (In im' ks /\ fm' = Some (dp (As im') x) /\ (forall k, In k ks -> dp (As k) x <= dp (As im') x) /\
          forall m, fm = Some m -> m <= dp (As im') x))
    | inl (k, c) => In k ks /\
        ((S < dp (As k) x /\ c = (As k, BArr [dp (As k) x - S; dp (As k) x])) \/
         (dp (As k) x < 0 /\ dp (As k) x <= S /\ c = (vopp (As k), BArr [- dp (As k) x; - dp (As k) x + S])))
    end.
Proof.
  induction ks as [|k ks IH]; intros fm im Hks; cbn [stop_loop].
  - exists (inr (fm, im)). split; [reflexivity|]. split; [intros k []|]. left. split; [reflexivity|]. split; [reflexivity|]. intros k [].
  - assert (Hk : (k < lp_Ns P)%nat) by (apply Hks; left; reflexivity).
    assert (Hks' : forall j, In j ks -> (j < lp_Ns P)%nat) by (intros j Hj; apply Hks; right; exact Hj).
    unfold row. rewrite (proj2 (Nat.ltb_lt _ _) Hk). cbn [bind].
    change (ndot n (As k) x) with (dp (As k) x). change (nltb (A := R)) with Rltb. change (neqb (A := R)) with Req_bool.
    change (@nzero R RNum) with 0.
    destruct (Rltb S _) eqn:B1; [apply Rltb_true in B1|apply Rltb_false in B1].
    { eexists; split; [reflexivity|]. split; [left; reflexivity|]. left. split; [exact B1|reflexivity]. }
    destruct (Rltb (dp (As k) x) 0) eqn:B2; [apply Rltb_true in B2|apply Rltb_false in B2].
    { eexists; split; [reflexivity|]. split; [left; reflexivity|]. right. split; [exact B2|]. split; [exact B1|reflexivity]. }
    assert (Hgt : exists b, match fm with Some m => Rltb m (dp (As k) x) | None => Req_bool (dp (As k) x) (dp (As k) x) end = b /\
       ((b = true /\ forall m, fm = Some m -> m < dp (As k) x) \/ (b = false /\ exists m, fm = Some m /\ dp (As k) x <= m))).
    { eexists; split; [reflexivity|]. destruct fm as [m|].
      - destruct (Rltb m _) eqn:B; [apply Rltb_true in B|apply Rltb_false in B].
        + left. split; [reflexivity|]. intros m' [= <-]. exact B.
        + right. split; [reflexivity|]. eauto.
      - left. split; [apply Reqb_true; reflexivity|]. discriminate. }
    destruct Hgt as (b & -> & [[-> Hm]|[-> (m & -> & Hm)]]).
    + destruct (IH (Some (dp (As k) x)) k Hks') as (r & -> & Hr). exists r. split; [reflexivity|].
      destruct r as [[j c]|[fm' im']].
      * destruct Hr as [Hj Hr]. split; [right; exact Hj|exact Hr].
      * destruct Hr as [Hb Hr]. split; [intros j [<-|Hj]; [lra|auto]|]. right.
        destruct Hr as [(-> & -> & Hall)|(Hin & -> & Hall & Hprev)].
        -- split; [left; reflexivity|]. split; [reflexivity|]. split.
           ++ intros j [<-|Hj]; [lra|]. destruct (Hall j Hj) as (m & [= <-] & Hle). exact Hle.
           ++ intros m Hmm. specialize (Hm m Hmm). lra.
        -- split; [right; exact Hin|]. split; [reflexivity|]. specialize (Hprev _ eq_refl). split.
           ++ intros j [<-|Hj]; [lra|auto].
           ++ intros m Hmm. specialize (Hm m Hmm). lra.
    + destruct (IH (Some m) im Hks') as (r & -> & Hr). exists r. split; [reflexivity|].
      destruct r as [[j c]|[fm' im']].
      * destruct Hr as [Hj Hr]. split; [right; exact Hj|exact Hr].
      * destruct Hr as [Hb Hr]. split; [intros j [<-|Hj]; [lra|auto]|].
        destruct Hr as [(-> & -> & Hall)|(Hin & -> & Hall & Hprev)].
        -- left. split; [reflexivity|]. split; [reflexivity|]. intros j [<-|Hj]; [eauto|auto].
        -- right. split; [right; exact Hin|]. split; [reflexivity|]. specialize (Hprev _ eq_refl). split.
           ++ intros j [<-|Hj]; [lra|auto].
           ++ intros m' [= <-]. exact Hprev.
Qed.

Lemma nonneg_loop_spec x : forall ks, (forall k, In k ks -> (k < lp_Nr P)%nat) ->
  exists r, nonneg_loop P ks x = Ok r /\
    match r with
    | None => forall k, In k ks -> 0 <= dp (Anr k) x
    | Some (k, c) => In k ks /\ dp (Anr k) x < 0 /\ c = (vopp (Anr k), BScalar (- dp (Anr k) x))
    end.
Proof.
  induction ks as [|k ks IH]; intros Hks; cbn [nonneg_loop].
  - exists None. split; [reflexivity|]. intros k [].
  - assert (Hk : (k < lp_Nr P)%nat) by (apply Hks; left; reflexivity).
    unfold row. rewrite (proj2 (Nat.ltb_lt _ _) Hk). cbn [bind].
    change (ndot n (Anr k) x) with (dp (Anr k) x). change (nltb (A := R)) with Rltb. change (@nzero R RNum) with 0.
    destruct (Rltb _ _) eqn:B2; [apply Rltb_true in B2|apply Rltb_false in B2].
    { eexists; split; [reflexivity|]. split; [left; reflexivity|]. split; [exact B2|reflexivity]. }
    destruct (IH ltac:(intros j Hj; apply Hks; right; exact Hj)) as (r & -> & Hr). exists r. split; [reflexivity|].
    destruct r as [[j c]|].
    + destruct Hr as [Hj Hr]. split; [right; exact Hj|exact Hr].
    + intros j [<-|Hj]; [lra|auto].
Qed.

(** first offset of a cut *)
Definition beta0 (b : cut_beta R) : R := match b with BScalar b | BArr (b :: _) => b | BArr [] => 0 end.
(** every cut has one or two offsets *)
Definition beta_ok (b : cut_beta R) : Prop := match b with BScalar _ | BArr [_; _] => True | _ => False end.

Lemma lowpass_call_spec s x S : (0 < n)%nat -> counters_ok P s ->
  match lowpass_call P s x S with
  | Ok (s', ((g, b), t1)) => counters_ok P s' /\ beta_ok b /\
      (lp_more s' = false <-> spectrum_ok P S x) /\
      match t1 with
      | Some m => filter_ok P S x /\ is_stop_max P x m
      | None => ~ filter_ok P S x /\ 0 < beta0 b
      end /\
      forall z, filter_ok P (match t1 with Some m => m | None => S end) z -> sat_cut n x (g, b) z
  | Raise e => e = IndexError /\ lp_Ns P = O /\ filter_ok P S x
  end.
Proof.
  intros Hn (C1 & C2 & C3). unfold lowpass_call.
  destruct (pass_loop_spec x (round_robin (lp_iAp s) (lp_Np P)) (fun k => proj1 (round_robin_in _ _ k C1))) as (r & -> & Hr).
  cbn [bind]. destruct r as [[k c]|].
  { destruct Hr as [Hk Hr]. apply (round_robin_in _ _ k C1) in Hk. destruct c as [g b].
    split; [unfold counters_ok; cbn; lia|].
    assert (Hns : ~ spectrum_ok P S x) by (intros (H1 & _); specialize (H1 k Hk); lra).
    destruct Hr as [[Hv [= -> ->]]|[Hv [= -> ->]]].
    - split; [exact I|]. split; [cbn; split; [discriminate|tauto]|].
      split; [split; [unfold filter_ok; tauto|cbn; lra]|]. intros z [(Z1 & _) _]. specialize (Z1 k Hk).
      unfold sat_cut. cbn [fst snd]. rewrite dot_diff. lra.
    - split; [exact I|]. split; [cbn; split; [discriminate|tauto]|].
      split; [split; [unfold filter_ok; tauto|cbn; lra]|]. intros z [(Z1 & _) _]. specialize (Z1 k Hk).
      unfold sat_cut. cbn [fst snd]. rewrite dot_diff, !dot_vopp. lra. }
  assert (Hp : forall k, (k < lp_Np P)%nat -> lp_Lpsq P <= dp (Ap k) x <= lp_Upsq P)
    by (intros k Hk; apply Hr, round_robin_in; assumption). clear Hr.
  destruct (stop_loop_spec x S (round_robin (lp_iAs s) (lp_Ns P)) None 0%nat (fun k => proj1 (round_robin_in _ _ k C2))) as (r & -> & Hr).
  cbn [bind]. destruct r as [[k c]|[fm im]].
  { destruct Hr as [Hk Hr]. apply (round_robin_in _ _ k C2) in Hk. destruct c as [g b].
    split; [unfold counters_ok; cbn; lia|].
    assert (Hns : ~ spectrum_ok P S x) by (intros (_ & H1 & _); specialize (H1 k Hk); lra).
    destruct Hr as [[Hv [= -> ->]]|[Hv [Hv2 [= -> ->]]]].
    - split; [exact I|]. split; [cbn; split; [discriminate|tauto]|].
      split; [split; [unfold filter_ok; tauto|cbn; lra]|]. intros z [(_ & Z1 & _) _]. specialize (Z1 k Hk).
      unfold sat_cut. cbn [fst snd]. rewrite dot_diff. lra.
    - split; [exact I|]. split; [cbn; split; [discriminate|tauto]|].
      split; [split; [unfold filter_ok; tauto|cbn; lra]|]. intros z [(_ & Z1 & _) _]. specialize (Z1 k Hk).
      unfold sat_cut. cbn [fst snd]. rewrite dot_diff, !dot_vopp. lra. }
  destruct Hr as [Hs0 Hmax].
  assert (Hs : forall k, (k < lp_Ns P)%nat -> 0 <= dp (As k) x <= S)
    by (intros k Hk; apply Hs0, round_robin_in; assumption). clear Hs0.
  destruct (nonneg_loop_spec x (round_robin (lp_iAnr s) (lp_Nr P)) (fun k => proj1 (round_robin_in _ _ k C3))) as (r & -> & Hr).
  cbn [bind]. destruct r as [[k c]|].
  { destruct Hr as (Hk & Hv & ->). apply (round_robin_in _ _ k C3) in Hk.
    split; [unfold counters_ok; cbn; lia|].
    assert (Hns : ~ spectrum_ok P S x) by (intros (_ & _ & H1); specialize (H1 k Hk); lra).
    split; [exact I|]. split; [cbn; split; [discriminate|tauto]|].
    split; [split; [unfold filter_ok; tauto|cbn; lra]|]. intros z [(_ & _ & Z1) _]. specialize (Z1 k Hk).
    unfold sat_cut. cbn [fst snd]. rewrite dot_diff, !dot_vopp. lra. }
  assert (Hnr : forall k, (k < lp_Nr P)%nat -> 0 <= dp (Anr k) x)
    by (intros k Hk; apply Hr, round_robin_in; assumption). clear Hr.
  assert (Hok : spectrum_ok P S x) by (split; [|split]; assumption).
  change (nltb (A := R)) with Rltb. change (@nzero R RNum) with 0.
  destruct (Rltb (x 0%nat) 0) eqn:B; [apply Rltb_true in B|apply Rltb_false in B].
  { split; [unfold counters_ok; cbn; lia|]. split; [exact I|]. split; [cbn; tauto|].
    split; [split; [unfold filter_ok; lra|cbn; lra]|]. intros z [_ Z].
    unfold sat_cut. cbn [fst snd]. rewrite dot_diff.
    assert (E : forall y, dp (vset (fun _ => 0) 0 (- none)) y = - y 0%nat).
    { intros y. unfold dot. rewrite (rsum_single n 0 _ Hn); [unfold vset; cbn; ring|].
      intros k _ Hk. unfold vset. rewrite (proj2 (Nat.eqb_neq k 0) Hk). ring. }
    rewrite !E. cbn. lra. }
  unfold row. destruct Hmax as [(-> & -> & Hall)|(Hin & -> & Hall & _)].
  - assert (E0 : lp_Ns P = O).
    { destruct (lp_Ns P) as [|m] eqn:E; [reflexivity|]. destruct (Hall 0%nat) as (? & ? & _); [|discriminate].
      apply round_robin_in; lia. }
    rewrite E0. cbn [Nat.ltb Nat.leb bind]. split; [reflexivity|]. split; [reflexivity|]. split; [exact Hok|exact B].
  - apply (round_robin_in _ _ im C2) in Hin. rewrite (proj2 (Nat.ltb_lt _ _) Hin). cbn [bind].
    split; [unfold counters_ok; cbn; lia|]. split; [exact I|]. split; [cbn; tauto|].
    split.
    + split; [split; [exact Hok|lra]|]. split; [exists im; auto|]. intros k Hk. apply Hall, round_robin_in; assumption.
    + intros z [(_ & Z & _) _]. specialize (Z im Hin). unfold sat_cut. cbn [fst snd]. rewrite dot_diff. lra.
Qed.
End LP.

(** ** any arithmetic: the verdict does not depend on the counters *)
Section AnyArith.
Context {A : Type} `{Num A}.
Variable P : lowpass A.
Notation n := (lp_n P).
Local Open Scope num_scope.
(** the comparisons of the code, over all rows *)
Definition pass_bad (x : nat -> A) (k : nat) : bool :=
  orb (lp_Upsq P <? ndot n (lp_Ap P k) x) (ndot n (lp_Ap P k) x <? lp_Lpsq P).
Definition stop_bad (x : nat -> A) (S : A) (k : nat) : bool :=
  orb (S <? ndot n (lp_As P k) x) (ndot n (lp_As P k) x <? nzero).
Definition nonneg_bad (x : nat -> A) (k : nat) : bool := ndot n (lp_Anr P k) x <? nzero.

Lemma pass_loop_any x : forall ks r, pass_loop P ks x = Ok r ->
  (r = None <-> forall k, In k ks -> pass_bad x k = false) /\ forall k c, r = Some (k, c) -> In k ks.
Proof.
  induction ks as [|k ks IH]; intros r Hr; cbn [pass_loop] in Hr.
  - injection Hr as <-. split; [split; [intros _ k []|reflexivity]|discriminate].
  - apply bind_ok in Hr as (a & Ha & Hr). unfold row in Ha. destruct (Nat.ltb k _); [injection Ha as <-|discriminate].
    destruct (lp_Upsq P <? _) eqn:B1.
    { injection Hr as <-. split.
      - split; [discriminate|]. intros Hall. specialize (Hall k (or_introl eq_refl)). unfold pass_bad in Hall. rewrite B1 in Hall. discriminate.
      - intros j c [= <- _]. left; reflexivity. }
    destruct (_ <? lp_Lpsq P) eqn:B2.
    { injection Hr as <-. split.
      - split; [discriminate|]. intros Hall. specialize (Hall k (or_introl eq_refl)). unfold pass_bad in Hall. rewrite B1, B2 in Hall. discriminate.
      - intros j c [= <- _]. left; reflexivity. }
    destruct (IH r Hr) as [Hi Hk]. split; [|intros j c E; right; eapply Hk, E]. rewrite Hi. split; intros Hall j Hj.
    + destruct Hj as [<-|Hj]; [unfold pass_bad; rewrite B1, B2; reflexivity|auto].
    + apply Hall. right. exact Hj.
Qed.
Lemma stop_loop_any x S : forall ks fm im r, stop_loop P ks x S fm im = Ok r ->
  ((exists p, r = inr p) <-> forall k, In k ks -> stop_bad x S k = false) /\ forall k c, r = inl (k, c) -> In k ks.
Proof.
  induction ks as [|k ks IH]; intros fm im r Hr; cbn [stop_loop] in Hr.
  - injection Hr as <-. split; [split; [intros _ k []|eauto]|discriminate].
  - apply bind_ok in Hr as (a & Ha & Hr). unfold row in Ha. destruct (Nat.ltb k _); [injection Ha as <-|discriminate].
    destruct (S <? _) eqn:B1.
    { injection Hr as <-. split.
      - split; [intros (p & E); discriminate|]. intros Hall. specialize (Hall k (or_introl eq_refl)). unfold stop_bad in Hall. rewrite B1 in Hall. discriminate.
      - intros j c [= <- _]. left; reflexivity. }
    destruct (_ <? nzero) eqn:B2.
    { injection Hr as <-. split.
      - split; [intros (p & E); discriminate|]. intros Hall. specialize (Hall k (or_introl eq_refl)). unfold stop_bad in Hall. rewrite B1, B2 in Hall. discriminate.
      - intros j c [= <- _]. left; reflexivity. }
    assert (Hr' : exists fm im, stop_loop P ks x S fm im = Ok r).
    { destruct (match fm with Some m => _ | None => _ end); eauto. }
    destruct Hr' as (fm' & im' & Hr'). destruct (IH _ _ r Hr') as [Hi Hk].
    split; [|intros j c E; right; eapply Hk, E]. rewrite Hi. split; intros Hall j Hj.
    + destruct Hj as [<-|Hj]; [unfold stop_bad; rewrite B1, B2; reflexivity|auto].
    + apply Hall. right. exact Hj.
Qed.
Lemma nonneg_loop_any x : forall ks r, nonneg_loop P ks x = Ok r ->
  (r = None <-> forall k, In k ks -> nonneg_bad x k = false) /\ forall k c, r = Some (k, c) -> In k ks.
Proof.
  induction ks as [|k ks IH]; intros r Hr; cbn [nonneg_loop] in Hr.
  - injection Hr as <-. split; [split; [intros _ k []|reflexivity]|discriminate].
  - apply bind_ok in Hr as (a & Ha & Hr). unfold row in Ha. destruct (Nat.ltb k _); [injection Ha as <-|discriminate].
    destruct (_ <? nzero) eqn:B1.
    { injection Hr as <-. split.
      - split; [discriminate|]. intros Hall. specialize (Hall k (or_introl eq_refl)). unfold nonneg_bad in Hall. rewrite B1 in Hall. discriminate.
      - intros j c [= <- _]. left; reflexivity. }
    destruct (IH r Hr) as [Hi Hk]. split; [|intros j c E; right; eapply Hk, E]. rewrite Hi. split; intros Hall j Hj.
    + destruct Hj as [<-|Hj]; [exact B1|auto].
    + apply Hall. right. exact Hj.
Qed.
Lemma lowpass_call_any s x S s' c t1 : counters_ok P s -> lowpass_call P s x S = Ok (s', (c, t1)) ->
  let rows_ok := (forall k, (k < lp_Np P)%nat -> pass_bad x k = false) /\
                 (forall k, (k < lp_Ns P)%nat -> stop_bad x S k = false) /\
                 (forall k, (k < lp_Nr P)%nat -> nonneg_bad x k = false) in
  counters_ok P s' /\ (lp_more s' = false <-> rows_ok) /\
  (t1 <> None <-> rows_ok /\ (x 0%nat <? nzero) = false).
Proof.
  intros (C1 & C2 & C3) Hc rows_ok. unfold lowpass_call in Hc.
  apply bind_ok in Hc as (r & Hp & Hc). apply pass_loop_any in Hp as [Hp Hpk].
  assert (Hp' : r = None <-> forall k, (k < lp_Np P)%nat -> pass_bad x k = false).
  { rewrite Hp. split; intros Hall k Hk; apply Hall; apply (round_robin_in (lp_iAp s) (lp_Np P) k C1); exact Hk. }
  destruct r as [[k c1]|].
  { specialize (Hpk _ _ eq_refl). apply round_robin_in in Hpk; [|assumption]. injection Hc as <- <- <-.
    split; [unfold counters_ok; cbn; lia|]. cbn [lp_more].
    assert (Hn : ~ rows_ok) by (intros (H1 & _); apply Hp' in H1; discriminate). split; split; try tauto; discriminate. }
  apply bind_ok in Hc as (r & Hs & Hc). apply stop_loop_any in Hs as [Hs Hsk].
  assert (Hs' : (exists p, r = inr p) <-> forall k, (k < lp_Ns P)%nat -> stop_bad x S k = false).
  { rewrite Hs. split; intros Hall k Hk; apply Hall; apply (round_robin_in (lp_iAs s) (lp_Ns P) k C2); exact Hk. }
  destruct r as [[k c1]|[fm im]].
  { specialize (Hsk _ _ eq_refl). apply round_robin_in in Hsk; [|assumption]. injection Hc as <- <- <-.
    split; [unfold counters_ok; cbn; lia|]. cbn [lp_more].
    assert (Hn : ~ rows_ok) by (intros (_ & H1 & _); apply Hs' in H1 as (p & E); discriminate). split; split; try tauto; discriminate. }
  apply bind_ok in Hc as (r & Hr & Hc). apply nonneg_loop_any in Hr as [Hr Hrk].
  assert (Hr' : r = None <-> forall k, (k < lp_Nr P)%nat -> nonneg_bad x k = false).
  { rewrite Hr. split; intros Hall k Hk; apply Hall; apply (round_robin_in (lp_iAnr s) (lp_Nr P) k C3); exact Hk. }
  destruct r as [[k c1]|].
  { specialize (Hrk _ _ eq_refl). apply round_robin_in in Hrk; [|assumption]. injection Hc as <- <- <-.
    split; [unfold counters_ok; cbn; lia|]. cbn [lp_more].
    assert (Hn : ~ rows_ok) by (intros (_ & _ & H1); apply Hr' in H1; discriminate). split; split; try tauto; discriminate. }
  assert (Hrow : rows_ok) by (split; [apply Hp'|split; [apply Hs'; eauto|apply Hr']]; reflexivity).
  destruct (x 0%nat <? nzero).
  { injection Hc as <- <- <-. split; [unfold counters_ok; cbn; lia|]. cbn [lp_more]. split; [tauto|].
    split; [congruence|intros [_ ?]; discriminate]. }
  apply bind_ok in Hc as (g & _ & Hc). destruct fm as [m|]; [|discriminate]. injection Hc as <- <- <-.
  split; [unfold counters_ok; cbn; lia|]. cbn [lp_more]. split; [tauto|]. split; [tauto|discriminate].
Qed.
End AnyArith.

(** ** re-centred cuts *)
Lemma beta_add_sat n g b r rc z :
  sat_cut n r (g, beta_add b (dot n g (fun i => rc i - r i))) z <->
  sat_cut n rc (g, b) (fun i => z i + 2 * (rc i - r i)).
Proof.
  unfold sat_cut. cbn [fst snd].
  assert (E : dot n g (fun i => z i + 2 * (rc i - r i) - rc i) =
    dot n g (fun i => z i - r i) + dot n g (fun i => rc i - r i)).
  { rewrite <- dot_plus_r. apply rsum_ext. intros; ring. }
  rewrite E. destruct b as [b|[|b0 [|b1 bs]]]; cbn; split; lra || tauto.
Qed.

(** ** a cut with positive first offset is never without effect *)
Lemma calc_ll_pos e T beta T' : (2 <= e_n e)%nat -> ell_consts e -> 0 <= T -> beta_ok beta -> 0 < beta0 beta ->
  calc_ll (A := R) e T beta <> Ok (T', Stop noeffect).
Proof.
  intros Hn Hc HT Hok Hb H.
  assert (HN : 2 <= IZR (Z.of_nat (e_n e))) by (apply IZR_le; lia).
  assert (Hdc : forall b, 0 < b -> calc_dc e T b <> Ok (T', Stop noeffect)).
  { intros b Hb0 Hd. apply calc_dc_spec in Hd as [_ Hd]; [|assumption..]. cbn in Hd. pose proof (sqrt_pos T). nra. }
  destruct beta as [b|[|b0 [|b1 [|? ?]]]]; try contradiction; cbn in Hb.
  - exact (Hdc b Hb H).
  - cbn [calc_ll] in H. unfold calc_ll_core in H.
    apply bind_ok in H as (b1t & Hb1t & H). apply rdiv_inv in Hb1t as [HT0 ->].
    destruct (orb _ _); [exact (Hdc b0 Hb H)|].
    change (nltb (A := R)) with Rltb in H. change (neqb (A := R)) with Req_bool in H. change (@nzero R RNum) with 0 in H.
    change (@nsub R RNum) with Rminus in H.
    destruct (Rltb (b1 - b0) 0) eqn:B; [discriminate|]. apply Rltb_false in B.
    destruct (Req_bool b0 0).
    { apply bind_ok in H as (o & Ho & H). injection H as _ ->. unfold calc_ll_cc in Ho.
      repeat (apply bind_ok in Ho as (? & ? & Ho)). discriminate. }
    rewrite rdiv_ok in H by assumption. cbn [bind] in H.
    destruct (Rltb _ _) eqn:B2.
    + apply Rltb_true in B2. cbn in B2.
      assert (0 < IZR (Z.of_nat (e_n e)) * (b0 * (b1 / T))).
      { apply Rmult_lt_0_compat; [lra|]. apply Rmult_lt_0_compat; [lra|]. apply Rdiv_lt_0_compat; lra. }
      unfold nofnat in B2; cbn in B2. lra.
    + repeat (apply bind_ok in H as (? & ? & H)). discriminate.
Qed.

Definition no_te {B} (m : res B) : Prop := m <> Raise TypeError.
Lemma no_te_bind {B C} (m : res B) (f : B -> res C) : no_te m -> (forall b, m = Ok b -> no_te (f b)) -> no_te (bind m f).
Proof. unfold no_te. destruct m as [b|e]; cbn; [auto|]. intros H _ E. apply H. congruence. Qed.
Lemma no_te_ok {B} (b : B) : no_te (Ok b).
Proof. discriminate. Qed.
Lemma no_te_div (x y : R) : no_te (ndiv x y).
Proof. unfold no_te. cbn. destruct (Req_EM_T y 0); discriminate. Qed.
Lemma no_te_sqrt (x : R) : no_te (nsqrt x).
Proof. unfold no_te. cbn. destruct (Rlt_dec x 0); discriminate. Qed.
Ltac no_te := repeat (first [apply no_te_ok | apply no_te_div | apply no_te_sqrt
  | apply no_te_bind; [|intros ? _] | match goal with |- no_te (if ?b then _ else _) => destruct b end
  | match goal with |- no_te (let '(_, _) := ?p in _) => destruct p end
  | match goal with |- no_te (match ?p with pair _ _ => _ end) => destruct p end ]).
Lemma calc_dc_no_te (e : ell R) T b : no_te (calc_dc e T b).
Proof.
  unfold calc_dc, calc_cc. apply no_te_bind.
  - cbn. destruct (Rlt_dec T 0); discriminate.
  - intros [? ?] _. no_te.
Qed.
Lemma ell_update_no_te st c : no_te (ell_update (A := R) st c).
Proof.
  destruct st as [w e], c as [g beta]. unfold ell_update. apply no_te_bind.
  - destruct beta as [b|[|b0 [|b1 bs]]]; cbn [calc_ll]; try apply calc_dc_no_te; [discriminate|].
    unfold calc_ll_core, calc_ll_cc. apply no_te_bind; [apply no_te_div|]. intros b1t _.
    destruct (orb _ _); [apply calc_dc_no_te|]. no_te.
  - intros [tsq out] _. destruct out; no_te.
Qed.

Lemma ell_update_pos w e g b st' tsq : ell_wf e -> beta_ok b -> 0 < beta0 b ->
  ell_update (A := R) (w, e) (g, b) <> Ok (st', (noeffect, tsq)).
Proof.
  intros (Hn & Hc & Hs & Hp & Hk) Hok Hb H. unfold ell_update in H.
  apply bind_ok in H as ([T out] & Hcalc & H). destruct out as [st|].
  - injection H as _ -> _. revert Hcalc. apply calc_ll_pos; auto.
    apply Rmult_le_pos; [exact Hk|]. apply (Hp g).
  - repeat (apply bind_ok in H as (? & ? & H)). discriminate.
Qed.
