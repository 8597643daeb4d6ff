(** Proofs about M_Net.v: the negative cycle finder *)
From Coq Require Import Reals Lra.
From Verif Require Import Base M_Net S_Net.
Local Open Scope R_scope.

(** ** chains of predecessors *)
Fixpoint pit (pred : nat -> option nat) (k : nat) (x : nat) : option nat :=
  match k with
  | O => Some x
  | S k => match pred x with None => None | Some u => pit pred k u end
  end.
Lemma pit_add pred a : forall b x, pit pred (a + b) x = match pit pred a x with None => None | Some y => pit pred b y end.
Proof. induction a as [|a IH]; intros b x; [reflexivity|]. cbn. destruct (pred x); [apply IH|reflexivity]. Qed.
Lemma pit_S pred a x : pit pred (S a) x = match pit pred a x with None => None | Some y => pred y end.
Proof.
  replace (S a) with (a + 1)%nat by lia. rewrite pit_add. destruct (pit pred a x) as [y|]; [|reflexivity].
  cbn. destruct (pred y); reflexivity.
Qed.
Lemma pit_defined pred a b x y : (a <= b)%nat -> pit pred b x = Some y -> exists z, pit pred a x = Some z.
Proof.
  intros Hab E. replace b with (a + (b - a))%nat in E by lia. rewrite pit_add in E.
  destruct (pit pred a x) as [z|]; [eauto|discriminate].
Qed.
(** a node on a cycle has an infinite chain *)
Lemma pit_cycle pred k x : (1 <= k)%nat -> pit pred k x = Some x -> forall m, exists y, pit pred m x = Some y.
Proof.
  intros Hk Hx m. assert (H : forall q, pit pred (q * k) x = Some x).
  { induction q as [|q IH]; [reflexivity|]. cbn [Nat.mul]. rewrite pit_add, Hx. exact IH. }
  apply (pit_defined pred m (m * k) x x); [nia|apply H].
Qed.

(** ** one pass *)
Section Relax.
Variable E : list edge.
Variable wr : edge -> res R.
Variable w : edge -> R.
Hypothesis Hw : forall e, In e E -> wr e = Ok (w e).

Definition ok_pred (dist : nat -> R) (pred : nat -> option nat) : Prop :=
  forall v u, pred v = Some u -> In (u, v) E /\ dist u + w (u, v) <= dist v.
Definition strict_cycles (dist : nat -> R) (pred : nat -> option nat) : Prop :=
  forall x k, (1 <= k)%nat -> pit pred k x = Some x ->
    exists j y u, (j < k)%nat /\ pit pred j x = Some y /\ pred y = Some u /\ dist u + w (u, y) < dist y.

Lemma relax_step_inv dist pred u v :
  In (u, v) E -> dist u + w (u, v) < dist v ->
  ok_pred dist pred -> strict_cycles dist pred ->
  ok_pred (vset dist v (dist u + w (u, v))) (pset pred v u) /\
  strict_cycles (vset dist v (dist u + w (u, v))) (pset pred v u).
Proof.
  intros He Hlt Hok Hst. set (d := dist u + w (u, v)) in *. set (dist' := vset dist v d). set (pred' := pset pred v u).
  assert (Hle : forall x, dist' x <= dist x).
  { intros x. unfold dist', vset. destruct (Nat.eqb_spec x v) as [->|]; lra. }
  assert (Hne : forall x, x <> v -> dist' x = dist x).
  { intros x Hx. unfold dist', vset. destruct (Nat.eqb_spec x v); [contradiction|reflexivity]. }
  assert (Hv : dist' v = d) by (unfold dist', vset; rewrite Nat.eqb_refl; reflexivity).
  assert (Hpv : pred' v = Some u) by (unfold pred', pset; rewrite Nat.eqb_refl; reflexivity).
  assert (Hpne : forall x, x <> v -> pred' x = pred x).
  { intros x Hx. unfold pred', pset. destruct (Nat.eqb_spec x v); [contradiction|reflexivity]. }
  split.
  - intros y z Hy. destruct (Nat.eq_dec y v) as [->|Hyv].
    + rewrite Hpv in Hy. injection Hy as <-. split; [exact He|]. rewrite Hv. specialize (Hle u). fold d. unfold d at 1. lra.
    + rewrite Hpne in Hy by assumption. destruct (Hok y z Hy) as [H1 H2]. split; [exact H1|].
      rewrite (Hne y Hyv). specialize (Hle z). lra.
  - intros x k Hk Hx.
    assert (Hdec : (exists j, (j < k)%nat /\ pit pred' j x = Some v) \/ (forall j, (j < k)%nat -> pit pred' j x <> Some v)).
    { clear Hx Hk. induction k as [|k IH]; [right; intros; lia|]. destruct IH as [(j & H1 & H2)|IH].
      - left. exists j. split; [lia|exact H2].
      - destruct (option_map (Nat.eqb v) (pit pred' k x)) as [[|]|] eqn:B.
        + destruct (pit pred' k x) as [y|] eqn:Ey; [|discriminate]. injection B as B. apply Nat.eqb_eq in B as ->.
          left. exists k. split; [lia|exact Ey].
        + right. intros j Hj. destruct (Nat.eq_dec j k) as [->|]; [|apply IH; lia].
          destruct (pit pred' k x) as [y|]; [|discriminate]. injection B as B. apply Nat.eqb_neq in B. congruence.
        + right. intros j Hj. destruct (Nat.eq_dec j k) as [->|]; [|apply IH; lia].
          destruct (pit pred' k x); discriminate. }
    destruct Hdec as [(j & Hj & Hjv)|Hno].
    + assert (Hsucc : exists i y, (i < k)%nat /\ pit pred' i x = Some y /\ pred' y = Some v).
      { destruct j as [|j].
        - cbn in Hjv. injection Hjv as ->. destruct k as [|k]; [lia|]. rewrite pit_S in Hx.
          destruct (pit pred' k v) as [y|] eqn:Ey; [|discriminate]. exists k, y. split; [lia|]. auto.
        - rewrite pit_S in Hjv. destruct (pit pred' j x) as [y|] eqn:Ey; [|discriminate]. exists j, y. split; [lia|]. auto. }
      destruct Hsucc as (i & y & Hi & Hy & Hpy). exists i, y, v. split; [exact Hi|]. split; [exact Hy|]. split; [exact Hpy|].
      destruct (Nat.eq_dec y v) as [->|Hyv].
      * rewrite Hpv in Hpy. injection Hpy as ->. rewrite Hv. unfold d in *. lra.
      * rewrite Hpne in Hpy by assumption. destruct (Hok y v Hpy) as [_ H2]. rewrite Hv, (Hne y Hyv). lra.
    + assert (Hsame : forall j, (j <= k)%nat -> pit pred j x = pit pred' j x).
      { induction j as [|j IH]; intros Hj; [reflexivity|]. rewrite !pit_S, IH by lia.
        destruct (pit pred' j x) as [y|] eqn:Ey; [|reflexivity]. symmetry. apply Hpne.
        intros ->. apply (Hno j ltac:(lia) Ey). }
      rewrite <- Hsame in Hx by lia. destruct (Hst x k Hk Hx) as (j & y & z & Hj & Hy & Hz & Hs).
      rewrite Hsame in Hy by lia. assert (Hyv : y <> v) by (intros ->; apply (Hno j Hj Hy)).
      exists j, y, z. split; [exact Hj|]. split; [exact Hy|]. split; [rewrite Hpne by assumption; exact Hz|].
      rewrite (Hne y Hyv). specialize (Hle z). lra.
Qed.

(** ** ages: [L v] is the pass in which v was last relabelled (0: never) *)
Record aged (k : nat) (es1 es2 : list edge) (dist : nat -> R) (pred : nat -> option nat) (L : nat -> nat) : Prop := {
  ag_le : forall v, (L v <= k)%nat;
  ag_pred : forall v, (1 <= L v)%nat -> exists u, pred v = Some u;
  ag_chain : forall v u, pred v = Some u -> (L v <= L u + 1)%nat;
  ag_done : forall u v, In (u, v) es1 -> dist u + w (u, v) < dist v -> (k <= L u)%nat;
  ag_todo : forall u v, In (u, v) es2 -> dist u + w (u, v) < dist v -> (k <= L u + 1)%nat }.

Lemma relax_loop_spec k : (1 <= k)%nat -> forall es1 es2 dist pred ch L,
  (forall e, In e (es1 ++ es2) <-> In e E) ->
  ok_pred dist pred -> strict_cycles dist pred -> aged k es1 es2 dist pred L ->
  (ch = true -> exists v, L v = k) ->
  (ch = false -> forall e, In e es1 -> dist (fst e) + w e >= dist (snd e)) ->
  exists dist' pred' ch' L', relax_loop wr es2 dist pred ch = Ok (dist', pred', ch') /\
    ok_pred dist' pred' /\ strict_cycles dist' pred' /\ aged k (es1 ++ es2) [] dist' pred' L' /\
    (ch' = true -> exists v, L' v = k) /\
    (ch' = false -> potential E w dist').
Proof.
  intros Hk es1 es2. revert es1. induction es2 as [|[u v] es2 IH]; intros es1 dist pred ch L HE Hok Hst Hag Hch Hnc.
  - exists dist, pred, ch, L. rewrite app_nil_r in *. split; [reflexivity|]. repeat (split; [assumption|]).
    intros Hc i j He. specialize (Hnc Hc (i, j) (proj2 (HE _) He)). cbn in Hnc. lra.
  - assert (He : In (u, v) E) by (apply HE, in_or_app; right; left; reflexivity).
    cbn [relax_loop]. rewrite (Hw _ He). cbn [bind].
    assert (HE' : forall e, In e ((es1 ++ [(u, v)]) ++ es2) <-> In e E) by (intros e; rewrite <- app_assoc; apply HE).
    change (nadd (dist u) (w (u, v))) with (dist u + w (u, v)).
    change (nltb (dist u + w (u, v)) (dist v)) with (Rltb (dist u + w (u, v)) (dist v)).
    replace (es1 ++ (u, v) :: es2) with ((es1 ++ [(u, v)]) ++ es2) by (rewrite <- app_assoc; reflexivity).
    destruct (Rltb (dist u + w (u, v)) (dist v)) eqn:B.
    + apply Rltb_true in B. destruct (relax_step_inv dist pred u v He B Hok Hst) as [Hok' Hst'].
      apply (IH (es1 ++ [(u, v)]) _ _ _ (fun x => if Nat.eqb x v then k else L x)); try assumption.
      * destruct Hag as [Hle Hp Hc Hd Ht].
        assert (HLu : (k <= L u + 1)%nat) by (apply (Ht u v); [left; reflexivity|exact B]).
        assert (HLm : forall x, (L x <= (if Nat.eqb x v then k else L x))%nat).
        { intros x. specialize (Hle x). destruct (Nat.eqb x v); lia. }
        set (d := dist u + w (u, v)) in *.
        assert (Hdle : forall x, vset dist v d x <= dist x).
        { intros x. unfold vset. destruct (Nat.eqb_spec x v) as [->|]; lra. }
        constructor.
        -- intros x. specialize (Hle x). destruct (Nat.eqb x v); lia.
        -- intros x. unfold pset. destruct (Nat.eqb_spec x v) as [->|]; [intros _; eauto|apply Hp].
        -- intros y z. unfold pset. destruct (Nat.eqb_spec y v) as [->|Hy].
           ++ intros [= <-]. specialize (HLm u). lia.
           ++ intros Hz. specialize (Hc y z Hz). specialize (HLm z). lia.
        -- intros a b Hin Hlt. destruct (Nat.eqb_spec a v) as [->|Ha]; [lia|].
           assert (Ea : vset dist v d a = dist a) by (unfold vset; destruct (Nat.eqb_spec a v); [contradiction|reflexivity]).
           rewrite Ea in Hlt. apply in_app_or in Hin as [Hin|[Hin|[]]].
           ++ apply (Hd a b Hin). specialize (Hdle b). lra.
           ++ injection Hin as <- <-. unfold vset in Hlt. rewrite Nat.eqb_refl in Hlt. unfold d in Hlt. lra.
        -- intros a b Hin Hlt. destruct (Nat.eqb_spec a v) as [->|Ha]; [lia|].
           assert (Ea : vset dist v d a = dist a) by (unfold vset; destruct (Nat.eqb_spec a v); [contradiction|reflexivity]).
           rewrite Ea in Hlt. apply (Ht a b); [right; exact Hin|]. specialize (Hdle b). lra.
      * intros _. exists v. rewrite Nat.eqb_refl. reflexivity.
      * discriminate.
    + apply Rltb_false in B. apply (IH (es1 ++ [(u, v)]) _ _ _ L); try assumption.
      * destruct Hag as [Hle Hp Hc Hd Ht]. constructor; try assumption.
        -- intros a b Hin Hlt. apply in_app_or in Hin as [Hin|[Hin|[]]]; [apply (Hd a b); assumption|].
           injection Hin as <- <-. lra.
        -- intros a b Hin Hlt. apply (Ht a b); [right; exact Hin|exact Hlt].
      * intros Hc e Hin. apply in_app_or in Hin as [Hin|[Hin|[]]]; [apply Hnc; assumption|]. subst e. cbn. lra.
Qed.
End Relax.

(** ** the search for a cycle of predecessors *)
Definition stops (pred : nat -> option nat) (x : nat) : Prop := exists k, pit pred k x = None.
Definition unvisited (vs : list nat) (visited : nat -> option nat) : nat :=
  length (filter (fun v => match visited v with None => true | Some _ => false end) vs).
Lemma unvisited_mark vs visited u l : In u vs -> visited u = None -> (S (unvisited vs (pset visited u l)) <= unvisited vs visited)%nat.
Proof.
  unfold unvisited. intros Hin Hu.
  assert (Hle : forall vs, (length (filter (fun v => match pset visited u l v with None => true | Some _ => false end) vs)
            <= length (filter (fun v => match visited v with None => true | Some _ => false end) vs))%nat).
  { clear Hin vs. intros vs. induction vs as [|v vs IH]; [cbn; lia|]. cbn [filter]. unfold pset at 1. destruct (Nat.eqb_spec v u) as [->|].
    - rewrite Hu. cbn [length]. lia.
    - destruct (visited v); cbn [length]; lia. }
  induction vs as [|v vs IH]; [destruct Hin|]. cbn [filter]. unfold pset at 1. destruct (Nat.eqb_spec v u) as [->|Hne].
  - rewrite Hu. cbn [length]. specialize (Hle vs). lia.
  - destruct Hin as [->|Hin]; [contradiction|]. specialize (IH Hin). destruct (visited v); cbn [length] in *; lia.
Qed.

Section Find.
Variable vs : list nat.
Variable pred : nat -> option nat.
Hypothesis Hcl : forall x u, pred x = Some u -> In u vs.

Lemma walk_loop_spec v : forall fuel u visited,
  In u vs -> visited u = None -> (unvisited vs visited <= fuel)%nat ->
  (forall x, visited x = Some v -> exists j, pit pred j x = Some u) ->
  (forall x l, visited x = Some l -> l <> v -> stops pred x) ->
  exists r visited', walk_loop fuel pred v u visited = Ok (r, visited') /\
    visited' u <> None /\ (forall x l, visited x = Some l -> visited' x = Some l) /\
    (forall x, visited' x = Some v \/ visited' x = visited x) /\
    match r with
    | Some c => (exists k, (1 <= k)%nat /\ pit pred k c = Some c) /\ In c vs
    | None => forall x l, visited' x = Some l -> stops pred x
    end.
Proof.
  induction fuel as [|fuel IH]; intros u visited Hin Hu Hf Hpath Hold.
  - pose proof (unvisited_mark vs visited u v Hin Hu). lia.
  - cbn [walk_loop]. pose proof (unvisited_mark vs visited u v Hin Hu) as Hmark. set (vis1 := pset visited u v) in *.
    assert (H1u : vis1 u = Some v) by (unfold vis1, pset; rewrite Nat.eqb_refl; reflexivity).
    assert (H1ne : forall x, x <> u -> vis1 x = visited x).
    { intros x Hx. unfold vis1, pset. destruct (Nat.eqb_spec x u); [contradiction|reflexivity]. }
    assert (Hmon : forall x l, visited x = Some l -> vis1 x = Some l).
    { intros x l Hx. rewrite H1ne; [exact Hx|]. intros ->. congruence. }
    assert (Horig : forall x, vis1 x = Some v \/ vis1 x = visited x).
    { intros x. destruct (Nat.eq_dec x u) as [->|]; [left; exact H1u|right; auto]. }
    assert (Hpath1 : forall x, vis1 x = Some v -> exists j, pit pred j x = Some u).
    { intros x Hx. destruct (Nat.eq_dec x u) as [->|Hxu]; [exists 0%nat; reflexivity|]. rewrite H1ne in Hx by assumption. auto. }
    assert (Hold1 : forall x l, vis1 x = Some l -> l <> v -> stops pred x).
    { intros x l Hx Hl. destruct (Nat.eq_dec x u) as [->|Hxu]; [congruence|]. rewrite H1ne in Hx by assumption. eauto. }
    destruct (pred u) as [u'|] eqn:Ep.
    + destruct (vis1 u') as [l|] eqn:El.
      * destruct (Nat.eqb_spec l v) as [->|Hl].
        -- exists (Some u'), vis1. split; [reflexivity|]. split; [congruence|]. split; [exact Hmon|]. split; [exact Horig|].
           split; [|apply (Hcl u u' Ep)]. destruct (Hpath1 u' El) as (j & Hj). exists (S j). split; [lia|].
           rewrite pit_S, Hj. exact Ep.
        -- exists None, vis1. split; [reflexivity|]. split; [congruence|]. split; [exact Hmon|]. split; [exact Horig|].
           intros x l' Hx. destruct (Nat.eq_dec l' v) as [->|Hl']; [|eauto].
           destruct (Hpath1 x Hx) as (j & Hj). destruct (Hold1 u' l El Hl) as (k & Hk).
           exists (S j + k)%nat. rewrite pit_add, pit_S, Hj, Ep. exact Hk.
      * destruct (IH u' vis1) as (r & vis2 & E & H2u & H2m & H2o & H2r); try assumption.
        { apply (Hcl u u' Ep). } { lia. }
        { intros x Hx. destruct (Hpath1 x Hx) as (j & Hj). exists (S j). rewrite pit_S, Hj. exact Ep. }
        exists r, vis2. split; [exact E|]. split; [rewrite (H2m u v H1u); discriminate|].
        split; [intros x l Hx; apply H2m, Hmon, Hx|]. split; [|exact H2r].
        intros x. destruct (H2o x) as [?|E2]; [left; assumption|]. rewrite E2. apply Horig.
    + exists None, vis1. split; [reflexivity|]. split; [congruence|]. split; [exact Hmon|]. split; [exact Horig|].
      intros x l Hx. destruct (Nat.eq_dec l v) as [->|Hl]; [|eauto].
      destruct (Hpath1 x Hx) as (j & Hj). exists (S j). rewrite pit_S, Hj. exact Ep.
Qed.

Lemma unvisited_le visited : (unvisited vs visited <= length vs)%nat.
Proof.
  unfold unvisited. generalize vs. intros l. induction l as [|v l IH]; cbn [filter length]; [lia|].
  destruct (visited v); cbn [length]; lia.
Qed.

Lemma find_cycle_loop_spec : forall us visited, incl us vs ->
  (forall x l, visited x = Some l -> stops pred x) ->
  (forall l x, visited x = Some l -> visited l <> None) ->
  exists r, find_cycle_loop (length vs) us pred visited = Ok r /\
    match r with
    | Some c => (exists k, (1 <= k)%nat /\ pit pred k c = Some c) /\ In c vs
    | None => forall x, In x us -> stops pred x
    end.
Proof.
  induction us as [|v us IH]; intros visited Hincl Hst Hlab.
  - exists None. split; [reflexivity|]. intros x [].
  - cbn [find_cycle_loop]. assert (Hincl' : incl us vs) by (intros x Hx; apply Hincl; right; exact Hx).
    destruct (visited v) as [l|] eqn:Ev.
    + destruct (IH visited Hincl' Hst Hlab) as (r & E & Hr). exists r. split; [exact E|].
      destruct r; [exact Hr|]. intros x [<-|Hx]; [eauto|auto].
    + destruct (walk_loop_spec v (length vs) v visited) as (r & vis2 & E & H2u & H2m & H2o & H2r).
      { apply Hincl; left; reflexivity. } { exact Ev. } { apply unvisited_le. }
      { intros x Hx. exfalso. apply (Hlab v x Hx Ev). }
      { intros x l Hx _. eauto. }
      rewrite E. cbn [bind]. destruct r as [c|]; [exists (Some c); auto|].
      destruct (IH vis2 Hincl' H2r) as (r & E2 & Hr).
      { intros l x Hx. destruct (H2o x) as [H|H]; [rewrite H in Hx; injection Hx as <-; exact H2u|].
        rewrite H in Hx. specialize (Hlab l x Hx). destruct (visited l) as [l2|] eqn:El; [|contradiction].
        rewrite (H2m l l2 El). discriminate. }
      exists r. split; [exact E2|]. destruct r; [exact Hr|]. intros x [<-|Hx]; [|auto].
      destruct (vis2 v) as [l|] eqn:Ev2; [eauto|contradiction].
Qed.
End Find.

(** ** the cycle through a handle *)
Lemma min_period pred h k : (1 <= k)%nat -> pit pred k h = Some h ->
  exists m, (1 <= m <= k)%nat /\ pit pred m h = Some h /\ forall j, (0 < j < m)%nat -> pit pred j h <> Some h.
Proof.
  induction k as [k IH] using lt_wf_ind. intros Hk Hh.
  assert (Hdec : (exists j, (0 < j < k)%nat /\ pit pred j h = Some h) \/ (forall j, (0 < j < k)%nat -> pit pred j h <> Some h)).
  { clear IH Hh Hk. induction k as [|k IH]; [right; intros; lia|]. destruct IH as [(j & H1 & H2)|IH].
    - left. exists j. split; [lia|exact H2].
    - destruct (Nat.eq_dec k 0) as [->|Hk0]; [right; intros; lia|].
      destruct (option_map (Nat.eqb h) (pit pred k h)) as [[|]|] eqn:B.
      + destruct (pit pred k h) as [y|] eqn:Ey; [|discriminate]. injection B as B. apply Nat.eqb_eq in B as ->.
        left. exists k. split; [lia|exact Ey].
      + right. intros j Hj. destruct (Nat.eq_dec j k) as [->|]; [|apply IH; lia].
        destruct (pit pred k h) as [y|]; [|discriminate]. injection B as B. apply Nat.eqb_neq in B. congruence.
      + right. intros j Hj. destruct (Nat.eq_dec j k) as [->|]; [|apply IH; lia].
        destruct (pit pred k h); discriminate. }
  destruct Hdec as [(j & Hj & Ej)|Hno].
  - destruct (IH j ltac:(lia) ltac:(lia) Ej) as (m & H1 & H2 & H3). exists m. split; [lia|auto].
  - exists k. split; [lia|auto].
Qed.

Definition pit0 (pred : nat -> option nat) (x k : nat) : nat := match pit pred k x with Some y => y | None => x end.
Section Cycle.
Variable pred : nat -> option nat.
Variables (h m : nat).
Hypothesis Hm : (1 <= m)%nat.
Hypothesis Hh : pit pred m h = Some h.
Hypothesis Hmin : forall j, (0 < j < m)%nat -> pit pred j h <> Some h.

Lemma pit0_pit j : pit pred j h = Some (pit0 pred h j).
Proof. unfold pit0. destruct (pit_cycle pred m h Hm Hh j) as (y & ->). reflexivity. Qed.
Lemma pit0_pred j : pred (pit0 pred h j) = Some (pit0 pred h (S j)).
Proof.
  pose proof (pit0_pit (S j)) as H. rewrite pit_S, pit0_pit in H. exact H.
Qed.
Lemma pit0_inj i j : (i < m)%nat -> (j < m)%nat -> pit0 pred h i = pit0 pred h j -> i = j.
Proof.
  assert (H : forall i j, (i < j)%nat -> (j < m)%nat -> pit0 pred h i = pit0 pred h j -> False).
  { clear i j. intros i j Hij Hj E. apply (Hmin (i + (m - j))%nat); [lia|].
    rewrite pit_add, pit0_pit, E. pose proof Hh as H. replace m with (j + (m - j))%nat in H by lia.
    rewrite pit_add, pit0_pit in H. exact H. }
  intros Hi Hj E. destruct (Nat.lt_trichotomy i j) as [Hl|[?|Hl]]; [|assumption|].
  - exfalso. apply (H i j); assumption.
  - exfalso. apply (H j i); auto.
Qed.
Lemma pit0_0 : pit0 pred h 0 = h.
Proof. reflexivity. Qed.
Lemma pit0_m : pit0 pred h m = h.
Proof. unfold pit0. rewrite Hh. reflexivity. Qed.
Lemma pit0_ne j : (0 < j < m)%nat -> pit0 pred h j <> h.
Proof. intros Hj E. apply (Hmin j Hj). rewrite pit0_pit, E. reflexivity. Qed.

Lemma nodes_NoDup k : (k <= m)%nat -> NoDup (map (pit0 pred h) (seq 0 k)).
Proof.
  intros Hk. assert (H : forall s l, (s + l <= m)%nat -> NoDup (map (pit0 pred h) (seq s l))); [|apply H; lia].
  intros s l. revert s. induction l as [|l IH]; intros s Hs; cbn [seq map]; constructor.
  - intros Hin. apply in_map_iff in Hin as (j & E & Hj). apply in_seq in Hj. apply pit0_inj in E; lia.
  - apply IH. lia.
Qed.
Lemma period_le vs : (forall x u, pred x = Some u -> In u vs) -> (m <= length vs)%nat.
Proof.
  intros Hcl. pose proof (nodes_NoDup m ltac:(lia)) as Hnd.
  apply NoDup_incl_length with (l' := vs) in Hnd; [rewrite map_length, seq_length in Hnd; exact Hnd|].
  intros x Hx. apply in_map_iff in Hx as (j & <- & Hj). apply in_seq in Hj.
  destruct j as [|j]; [|apply (Hcl (pit0 pred h j)), pit0_pred].
  rewrite pit0_0, <- pit0_m. assert (Em : m = S (m - 1)) by lia. rewrite Em. apply (Hcl (pit0 pred h (m - 1))), pit0_pred.
Qed.

(** the edges of the cycle, backwards from position i *)
Definition cyc (i k : nat) : list edge := map (fun j => (pit0 pred h (S j), pit0 pred h j)) (seq i k).

Lemma cycle_list_loop_spec : forall fuel i, (i < m)%nat -> (m - i <= fuel)%nat ->
  cycle_list_loop fuel pred h (pit0 pred h i) = Ok (cyc i (m - i)).
Proof.
  induction fuel as [|fuel IH]; intros i Hi Hf; [lia|]. cbn [cycle_list_loop]. rewrite pit0_pred.
  destruct (Nat.eqb_spec (pit0 pred h (S i)) h) as [Eh|Eh].
  - assert (S i = m).
    { destruct (Nat.eq_dec (S i) m) as [?|Hne]; [assumption|]. exfalso. apply (pit0_ne (S i)); [lia|exact Eh]. }
    replace (m - i)%nat with 1%nat by lia. reflexivity.
  - assert (S i <> m) by (intros E; apply Eh; rewrite E; apply pit0_m).
    rewrite IH by lia. cbn [bind]. replace (m - i)%nat with (S (m - S i)) by lia. reflexivity.
Qed.

Section Walks.
Variable E : list edge.
Hypothesis Hin : forall v u, pred v = Some u -> In (u, v) E.
Lemma walk_app u c1 v c2 t : walk E u c1 v -> walk E v c2 t -> walk E u (c1 ++ c2) t.
Proof. induction 1; intros; cbn; [assumption|constructor; auto]. Qed.
Lemma cyc_walk : forall k i, walk E (pit0 pred h (i + k)%nat) (rev (cyc i k)) (pit0 pred h i).
Proof.
  induction k as [|k IH]; intros i; [rewrite Nat.add_0_r; constructor|].
  unfold cyc in *. cbn [seq map rev]. apply walk_app with (pit0 pred h (S i)).
  - replace (i + S k)%nat with (S i + k)%nat by lia. apply IH.
  - constructor; [exact (Hin _ _ (pit0_pred i))|constructor].
Qed.
Lemma cyc_simple : simple_cycle E (rev (cyc 0 m)).
Proof.
  split; [split|].
  - intros Hc. apply (f_equal (@rev _)) in Hc. rewrite rev_involutive in Hc. unfold cyc in Hc.
    assert (Em : m = S (m - 1)) by lia. rewrite Em in Hc. discriminate.
  - exists h. pose proof (cyc_walk m 0) as Hwk. cbn [Nat.add] in Hwk. rewrite pit0_m in Hwk. exact Hwk.
  - rewrite map_rev. apply NoDup_rev. unfold cyc. rewrite map_map. cbn [snd]. apply nodes_NoDup. lia.
Qed.
End Walks.

Section Weights.
Variable E : list edge.
Variable wr : edge -> res R.
Variable w : edge -> R.
Hypothesis Hw : forall e, In e E -> wr e = Ok (w e).
Variable dist : nat -> R.
Hypothesis Hok : ok_pred E w dist pred.

Lemma is_negative_loop_spec : forall fuel i, (i < m)%nat -> (m - i <= fuel)%nat ->
  (exists j, (i <= j < m)%nat /\ dist (pit0 pred h (S j)) + w (pit0 pred h (S j), pit0 pred h j) < dist (pit0 pred h j)) ->
  is_negative_loop fuel wr dist pred h (pit0 pred h i) = Ok true.
Proof.
  induction fuel as [|fuel IH]; intros i Hi Hf (j & Hj & Hs); [lia|]. cbn [is_negative_loop]. rewrite pit0_pred.
  destruct (Hok _ _ (pit0_pred i)) as [Hin _]. rewrite (Hw _ Hin). cbn [bind].
  set (b := nltb _ _). destruct b eqn:B; [reflexivity|]. unfold b in B. apply Rltb_false in B.
  assert (Hji : j <> i) by (intros ->; cbn in B; lra).
  destruct (Nat.eqb_spec (pit0 pred h (S i)) h) as [Eh|Eh].
  - exfalso. apply (pit0_ne (S i)); [lia|exact Eh].
  - apply IH; [lia|lia|]. exists j. split; [lia|exact Hs].
Qed.

Lemma cyc_total : forall k i, (forall j, (i <= j < i + k)%nat -> True) ->
  total w (cyc i k) <= dist (pit0 pred h i) - dist (pit0 pred h (i + k)%nat) /\
  ((exists j, (i <= j < i + k)%nat /\ dist (pit0 pred h (S j)) + w (pit0 pred h (S j), pit0 pred h j) < dist (pit0 pred h j)) ->
   total w (cyc i k) < dist (pit0 pred h i) - dist (pit0 pred h (i + k)%nat)).
Proof.
  induction k as [|k IH]; intros i _.
  - rewrite Nat.add_0_r. cbn. split; [lra|]. intros (j & Hj & _). lia.
  - unfold cyc in *. cbn [seq map total]. destruct (IH (S i)) as [H1 H2]; [trivial|].
    replace (S i + k)%nat with (i + S k)%nat in * by lia.
    destruct (Hok _ _ (pit0_pred i)) as [_ Hle]. split; [lra|].
    intros (j & Hj & Hs). destruct (Nat.eq_dec j i) as [->|Hne]; [lra|].
    assert (H3 : exists j, (S i <= j < i + S k)%nat /\
      dist (pit0 pred h (S j)) + w (pit0 pred h (S j), pit0 pred h j) < dist (pit0 pred h j))
      by (exists j; split; [lia|exact Hs]).
    specialize (H2 H3). lra.
Qed.

End Weights.
End Cycle.

Lemma total_app w a b : total w (a ++ b) = total w a + total w b.
Proof. induction a as [|e a IH]; cbn [app total]; lra. Qed.
Lemma total_rev w c : total w (rev c) = total w c.
Proof. induction c as [|e c IH]; [reflexivity|]. cbn [rev]. rewrite total_app, IH. cbn. lra. Qed.
Lemma walk_potential E w u s c t : potential E w u -> walk E s c t -> u t - u s <= total w c.
Proof.
  intros Hu. induction 1 as [|a b c t He _ IH]; cbn [total]; [lra|]. specialize (Hu _ _ He). lra.
Qed.

(** ** the main loop *)
Section Main.
Variable g : digraph.
Hypothesis Hg : forall u v, In (u, v) (g_edges g) -> In u (g_nodes g) /\ In v (g_nodes g).
Variable wr : edge -> res R.
Variable w : edge -> R.
Hypothesis Hw : forall e, In e (g_edges g) -> wr e = Ok (w e).

Lemma neg_cycle_loop_spec : forall fuel k dist pred L,
  (1 <= k)%nat -> (Nat.max 1 (length (g_nodes g)) <= k + fuel - 1)%nat ->
  (k <= Nat.max 1 (length (g_nodes g)))%nat ->
  ok_pred (g_edges g) w dist pred -> strict_cycles w dist pred ->
  aged w k [] (g_edges g) dist pred L ->
  exists c dist', neg_cycle_loop fuel g wr dist pred = Ok (c, dist') /\
    (c = [] -> potential (g_edges g) w dist') /\
    (c <> [] -> simple_cycle (g_edges g) (rev c) /\ total w c < 0).
Proof.
  induction fuel as [|fuel IH]; intros k dist pred L Hk Hf Hkn Hok Hst Hag; [lia|].
  cbn [neg_cycle_loop]. unfold relax.
  destruct (relax_loop_spec (g_edges g) wr w Hw k Hk [] (g_edges g) dist pred false L)
    as (dist1 & pred1 & ch & L1 & E & Hok1 & Hst1 & Hag1 & Hch & Hnc); try assumption.
  { intros e. reflexivity. } { discriminate. } { intros _ e []. }
  rewrite E. cbn [bind]. destruct ch; [|exists [], dist1; split; [reflexivity|]; split; [auto|intros H; contradiction]].
  assert (Hcl : forall x u, pred1 x = Some u -> In u (g_nodes g)) by (intros x u H; apply (Hg u x), (Hok1 x u H)).
  unfold find_cycle.
  destruct (find_cycle_loop_spec (g_nodes g) pred1 Hcl (g_nodes g) (fun _ => None)) as (r & Er & Hr).
  { intros x Hx; exact Hx. } { discriminate. } { discriminate. }
  rewrite Er. cbn [bind]. destruct r as [h|].
  - destruct Hr as ((p & Hp & Hph) & Hin). destruct (min_period pred1 h p Hp Hph) as (m & Hm & Hmh & Hmin).
    assert (Hml : (m <= length (g_nodes g))%nat) by (apply (period_le pred1 h m); (assumption || lia)).
    assert (Hstrict : exists j, (0 <= j < m)%nat /\
        dist1 (pit0 pred1 h (S j)) + w (pit0 pred1 h (S j), pit0 pred1 h j) < dist1 (pit0 pred1 h j)).
    { destruct (Hst1 h m ltac:(lia) Hmh) as (j & y & u & Hj & Hy & Hu & Hs).
      assert (Ey : y = pit0 pred1 h j) by (rewrite (pit0_pit pred1 h m ltac:(lia) Hmh) in Hy; congruence). subst y.
      rewrite (pit0_pred pred1 h m ltac:(lia) Hmh) in Hu. injection Hu as <-. exists j. split; [lia|exact Hs]. }
    pose proof (is_negative_loop_spec pred1 h m ltac:(lia) Hmh Hmin (g_edges g) wr w Hw dist1 Hok1 (length (g_nodes g)) 0
                  ltac:(lia) ltac:(lia) Hstrict) as Hneg.
    rewrite (pit0_0 pred1 h) in Hneg. rewrite Hneg. cbn [bind].
    pose proof (cycle_list_loop_spec pred1 h m ltac:(lia) Hmh Hmin (length (g_nodes g)) 0 ltac:(lia) ltac:(lia)) as Hcl2.
    rewrite (pit0_0 pred1 h) in Hcl2. rewrite Hcl2. cbn [bind]. rewrite Nat.sub_0_r.
    exists (cyc pred1 h 0 m), dist1. split; [reflexivity|]. split.
    { intros Hc. unfold cyc in Hc. destruct m; [lia|discriminate]. }
    intros _. split.
    + apply (cyc_simple pred1 h m ltac:(lia) Hmh Hmin). intros v u Hvu. apply (Hok1 v u Hvu).
    + destruct (cyc_total pred1 h m ltac:(lia) Hmh (g_edges g) w dist1 Hok1 m 0) as [_ H2]; [trivial|].
      specialize (H2 Hstrict). cbn [Nat.add] in H2. rewrite (pit0_m pred1 h m Hmh), (pit0_0 pred1 h) in H2. lra.
  - (* no cycle: the chain of ages shows that k < |V| *)
    assert (Hlt : (k < length (g_nodes g))%nat).
    { destruct (Hch eq_refl) as (v & Hv).
      assert (Hchain : forall j, (j <= k)%nat -> exists y, pit pred1 j v = Some y /\ (k - j <= L1 y)%nat).
      { induction j as [|j IHj]; intros Hj; [exists v; split; [reflexivity|lia]|].
        destruct (IHj ltac:(lia)) as (y & Hy & HLy). destruct (ag_pred _ _ _ _ _ _ _ Hag1 y ltac:(lia)) as (u & Hu).
        exists u. split; [rewrite pit_S, Hy; exact Hu|]. pose proof (ag_chain _ _ _ _ _ _ _ Hag1 y u Hu). lia. }
      assert (Hvin : In v (g_nodes g)).
      { destruct (ag_pred _ _ _ _ _ _ _ Hag1 v ltac:(lia)) as (u & Hu). apply (Hg u v), (Hok1 v u Hu). }
      assert (Hp0 : forall j, (j <= k)%nat -> pit pred1 j v = Some (pit0 pred1 v j)).
      { intros j Hj. unfold pit0. destruct (Hchain j Hj) as (y & -> & _). reflexivity. }
      assert (Hin0 : forall j, (j <= k)%nat -> In (pit0 pred1 v j) (g_nodes g)).
      { intros j Hj. destruct j as [|j]; [exact Hvin|]. pose proof (Hp0 (S j) Hj) as H. rewrite pit_S, Hp0 in H by lia.
        apply (Hcl _ _ H). }
      assert (Hnd : NoDup (map (pit0 pred1 v) (seq 0 (S k)))).
      { assert (H : forall s l, (s + l <= S k)%nat -> NoDup (map (pit0 pred1 v) (seq s l))); [|apply H; lia].
        intros s l. revert s. induction l as [|l IHl]; intros s Hs; cbn [seq map]; constructor; [|apply IHl; lia].
        intros Hi. apply in_map_iff in Hi as (j & Ej & Hj). apply in_seq in Hj.
        pose proof (Hp0 j ltac:(lia)) as Hpj. replace j with (s + (j - s))%nat in Hpj by lia.
        rewrite pit_add, Hp0 in Hpj by lia. replace (s + (j - s))%nat with j in Hpj by lia. rewrite Ej in Hpj.
        destruct (Hr (pit0 pred1 v s) (Hin0 s ltac:(lia))) as (q & Hq).
        destruct (pit_cycle pred1 (j - s) (pit0 pred1 v s) ltac:(lia) Hpj q) as (y & Hy). congruence. }
      apply NoDup_incl_length with (l' := g_nodes g) in Hnd; [rewrite map_length, seq_length in Hnd; lia|].
      intros x Hx. apply in_map_iff in Hx as (j & <- & Hj). apply in_seq in Hj. apply Hin0. lia. }
    apply (IH (S k) dist1 pred1 L1); try assumption; try lia.
    destruct Hag1 as [A1 A2 A3 A4 A5]. constructor; auto.
    + intros u v [].
    + intros u v Hin Hs. specialize (A4 u v Hin Hs). lia.
Qed.

Lemma find_neg_cycle_spec dist :
  exists c dist', find_neg_cycle g wr dist = Ok (c, dist') /\
    (c = [] -> potential (g_edges g) w dist') /\
    (c <> [] -> simple_cycle (g_edges g) (rev c) /\ total w c < 0).
Proof.
  unfold find_neg_cycle. apply (neg_cycle_loop_spec _ 1 dist (fun _ => None) (fun _ => 0%nat)); try lia.
  - discriminate.
  - intros x [|k] Hk Hx; [lia|discriminate].
  - constructor; intros; (lia || discriminate || contradiction).
Qed.
End Main.

(** an edge whose weight raises makes the finder raise *)
Lemma relax_loop_raises wr : forall es dist pred ch e, In e es -> (exists x, wr e = Raise x) ->
  exists x, relax_loop (A := R) wr es dist pred ch = Raise x.
Proof.
  induction es as [|[u v] es IH]; intros dist pred ch e Hin He; [destruct Hin|]. cbn [relax_loop].
  destruct (wr (u, v)) as [wt|x] eqn:E; cbn [bind]; [|eauto].
  destruct Hin as [<-|Hin]; [destruct He as (x & He); congruence|].
  destruct (nltb _ _); eapply IH; eauto.
Qed.

(** ** more fuel changes nothing; labels only decrease *)
Lemma neg_cycle_loop_more {A} `{Num A} (g : digraph) (wr : edge -> res A) : forall fuel dist pred r,
  neg_cycle_loop fuel g wr dist pred = Ok r -> forall k, neg_cycle_loop (fuel + k) g wr dist pred = Ok r.
Proof.
  induction fuel as [|fuel IH]; intros dist pred r Hr k; [discriminate|]. cbn [neg_cycle_loop Nat.add] in *.
  destruct (relax g wr dist pred) as [[[d p] ch]|]; [|discriminate]. cbn [bind] in *.
  destruct ch; [|exact Hr]. destruct (find_cycle g p) as [[v|]|]; [exact Hr| |discriminate]. cbn [bind] in *. apply IH, Hr.
Qed.
Lemma relax_loop_decreases wr : forall es dist pred ch d p c,
  relax_loop (A := R) wr es dist pred ch = Ok (d, p, c) -> forall v, d v <= dist v.
Proof.
  induction es as [|[a b] es IH]; intros dist pred ch d p c Hr v; cbn [relax_loop] in Hr.
  - injection Hr as <- <- <-. lra.
  - apply bind_ok in Hr as (wt & Hwt & Hr). destruct (nltb _ _) eqn:B; [|eapply IH; eauto].
    apply Rltb_true in B. specialize (IH _ _ _ _ _ _ Hr v). unfold vset in IH. destruct (Nat.eqb_spec v b) as [Evb|]; [rewrite Evb in *|]; cbn in *; lra.
Qed.
Lemma neg_cycle_loop_decreases g wr : forall fuel dist pred c d,
  neg_cycle_loop (A := R) fuel g wr dist pred = Ok (c, d) -> forall v, d v <= dist v.
Proof.
  induction fuel as [|fuel IH]; intros dist pred c d Hr v; [discriminate|]. cbn [neg_cycle_loop] in Hr.
  apply bind_ok in Hr as ([[d1 p1] ch] & Hrel & Hr). pose proof (relax_loop_decreases _ _ _ _ _ _ _ _ Hrel v) as Hle.
  destruct ch; [|injection Hr as <- <-; exact Hle].
  apply bind_ok in Hr as ([h|] & _ & Hr).
  - apply bind_ok in Hr as ([|] & _ & Hr); [|discriminate]. apply bind_ok in Hr as (c1 & _ & Hr). injection Hr as <- <-. exact Hle.
  - specialize (IH _ _ _ _ Hr v). lra.
Qed.

(** ** whatever the arithmetic, an answer is a simple cycle of the graph *)
Section AnyNum.
Context {A : Type} `{Num A}.
Variable g : digraph.
Hypothesis Hg : forall u v, In (u, v) (g_edges g) -> In u (g_nodes g) /\ In v (g_nodes g).
Variable wr : edge -> res A.
Lemma relax_loop_edges : forall es dist pred ch d p c, incl es (g_edges g) ->
  (forall v u, pred v = Some u -> In (u, v) (g_edges g)) ->
  relax_loop wr es dist pred ch = Ok (d, p, c) -> forall v u, p v = Some u -> In (u, v) (g_edges g).
Proof.
  induction es as [|[a b] es IH]; intros dist pred ch d p c Hincl Hp Hr; cbn [relax_loop] in Hr.
  - injection Hr as <- <- <-. exact Hp.
  - apply bind_ok in Hr as (wt & Hwt & Hr). assert (Hincl' : incl es (g_edges g)) by (intros x Hx; apply Hincl; right; exact Hx).
    destruct (nltb _ _); [|eapply IH; eauto]. eapply IH; [exact Hincl'| |exact Hr].
    intros v u. unfold pset. destruct (Nat.eqb_spec v b) as [->|]; [|apply Hp]. intros [= <-]. apply Hincl. left. reflexivity.
Qed.
Lemma neg_cycle_loop_any : forall fuel dist pred c d,
  (forall v u, pred v = Some u -> In (u, v) (g_edges g)) ->
  neg_cycle_loop fuel g wr dist pred = Ok (c, d) -> c <> [] -> simple_cycle (g_edges g) (rev c).
Proof.
  induction fuel as [|fuel IH]; intros dist pred c d Hp Hr Hc; [discriminate|]. cbn [neg_cycle_loop] in Hr.
  apply bind_ok in Hr as ([[d1 p1] ch] & Hrel & Hr).
  assert (Hp1 : forall v u, p1 v = Some u -> In (u, v) (g_edges g)).
  { eapply relax_loop_edges; [apply incl_refl|exact Hp|exact Hrel]. }
  destruct ch; [|injection Hr as <- <-; contradiction].
  apply bind_ok in Hr as (r & Hf & Hr). destruct r as [h|]; [|eapply IH; eauto].
  unfold find_cycle in Hf.
  destruct (find_cycle_loop_spec (g_nodes g) p1) with (us := g_nodes g) (visited := fun _ : nat => @None nat) as (r & Er & Hrr).
  { intros x u Hx. apply (Hg u x), (Hp1 x u Hx). } { apply incl_refl. } { discriminate. } { discriminate. }
  rewrite Hf in Er. injection Er as <-. destruct Hrr as ((k & Hk & Hkh) & _).
  destruct (min_period p1 h k Hk Hkh) as (m & Hm & Hmh & Hmin).
  apply bind_ok in Hr as ([|] & _ & Hr); [|discriminate]. apply bind_ok in Hr as (c1 & Hcl & Hr). injection Hr as <- <-.
  assert (Hml : (m <= length (g_nodes g))%nat).
  { apply (period_le p1 h m); try (assumption || lia). intros x u Hx. apply (Hg u x), (Hp1 x u Hx). }
  pose proof (cycle_list_loop_spec p1 h m ltac:(lia) Hmh Hmin (length (g_nodes g)) 0 ltac:(lia) ltac:(lia)) as Hcl2.
  rewrite (pit0_0 p1 h), Hcl in Hcl2. injection Hcl2 as ->. rewrite Nat.sub_0_r.
  apply (cyc_simple p1 h m ltac:(lia) Hmh Hmin _ Hp1).
Qed.
End AnyNum.

(** ** network oracle *)
Lemma lsum_total w wr E : (forall e, In e E -> wr e = Ok (w e)) -> forall c acc, incl c E ->
  lsum (nadd (A := R)) wr c acc = Ok (acc + total w c).
Proof.
  intros Hw. induction c as [|e c IH]; intros acc Hi; cbn [lsum total]; [f_equal; lra|].
  rewrite Hw by (apply Hi; left; reflexivity). cbn [bind]. rewrite IH by (intros x Hx; apply Hi; right; exact Hx).
  f_equal. cbn. lra.
Qed.
Lemma walk_incl E u c v : walk E u c v -> incl c E.
Proof. induction 1 as [|a b c t He _ IH]; intros x Hx; [destruct Hx|]. destruct Hx as [<-|Hx]; [exact He|auto]. Qed.
Lemma cycle_incl E c : cycle E (rev c) -> incl c E.
Proof. intros (_ & u & Hu) x Hx. apply (walk_incl _ _ _ _ Hu). apply in_rev in Hx. exact Hx. Qed.
Lemma potential_cycle E w u c : potential E w u -> cycle E c -> 0 <= total w c.
Proof. intros Hu (_ & s & Hs). pose proof (walk_potential E w u s c s Hu Hs). lra. Qed.

Section Net.
Context {X G : Type}.
Variable E : list edge.
Variable finder : (nat -> R) -> (edge -> res R) -> res (list (list edge) * (nat -> R)).
Hypothesis Hfin : finds_negative_cycles E finder.
Variable eval : edge -> X -> res R.
Variable grad : edge -> X -> res G.
Variables (gzero : G) (gadd : G -> G -> G) (gopp : G -> G).
Variable ev : edge -> X -> R.
Variable gr : edge -> X -> G.
Hypothesis Hev : forall e x, In e E -> eval e x = Ok (ev e x).
Hypothesis Hgr : forall e x, In e E -> grad e x = Ok (gr e x).
(** lin g x z stands for g.(z - x) *)
Variable lin : G -> X -> X -> R.
Hypothesis lin0 : forall x z, lin gzero x z = 0.
Hypothesis lin_add : forall a b x z, lin (gadd a b) x z = lin a x z + lin b x z.
Hypothesis lin_opp : forall a x z, lin (gopp a) x z = - lin a x z.
Hypothesis concave : forall e x z, In e E -> ev e z <= ev e x + lin (gr e x) x z.

Lemma lsum_grad x z : forall c acc, incl c E ->
  exists g, lsum gadd (fun e => grad e x) c acc = Ok g /\
    lin g x z = lin acc x z + total (fun e => lin (gr e x) x z) c /\ forall z', lin g x z' = lin acc x z' + total (fun e => lin (gr e x) x z') c.
Proof.
  induction c as [|e c IH]; intros acc Hi; cbn [lsum total].
  - exists acc. split; [reflexivity|]. split; [lra|intros; lra].
  - rewrite Hgr by (apply Hi; left; reflexivity). cbn [bind].
    destruct (IH (gadd acc (gr e x))) as (g & Eg & H1 & H2); [intros y Hy; apply Hi; right; exact Hy|].
    exists g. split; [exact Eg|]. rewrite lin_add in H1. split; [lra|]. intros z'. rewrite H2, lin_add. lra.
Qed.
Lemma total_le (f1 f2 : edge -> R) c : (forall e, In e c -> f1 e <= f2 e) -> total f1 c <= total f2 c.
Proof.
  induction c as [|e c IH]; intros Hle; cbn [total]; [lra|].
  assert (f1 e <= f2 e) by (apply Hle; left; reflexivity). assert (total f1 c <= total f2 c) by (apply IH; intros; apply Hle; right; assumption). lra.
Qed.
Lemma total_plus (f1 f2 : edge -> R) c : total (fun e => f1 e + f2 e) c = total f1 c + total f2 c.
Proof. induction c as [|e c IH]; cbn [total]; [lra|]. rewrite IH. lra. Qed.

Lemma network_call_spec u x u' cut :
  network_call finder eval grad gzero gadd gopp u x = Ok (u', cut) ->
  match cut with
  | None => potential E (fun e => ev e x) u'
  | Some (g, f) => 0 < f /\ exists c, cycle E c /\ f = - total (fun e => ev e x) c /\
      (forall z, lin g x z = - total (fun e => lin (gr e x) x z) c) /\
      forall z v, potential E (fun e => ev e z) v -> lin g x z + f <= 0
  end.
Proof.
  unfold network_call. intros H. apply bind_ok in H as ([cs u1] & Hf & H).
  pose proof (Hfin u (fun e => eval e x) (fun e => ev e x) cs u1 (fun e He => Hev e x He) Hf) as Hcs.
  destruct cs as [|c cs]; [injection H as <- <-; exact Hcs|]. destruct Hcs as [Hc Hneg].
  pose proof (cycle_incl E c Hc) as Hincl.
  rewrite (lsum_total (fun e => ev e x) _ E (fun e He => Hev e x He)) in H by assumption. cbn [bind] in H.
  destruct (lsum_grad x x c gzero Hincl) as (g & Eg & _ & Hg). rewrite Eg in H. cbn [bind] in H. injection H as <- <-.
  change (nopp (nzero + total (fun e => ev e x) c)) with (- (0 + total (fun e => ev e x) c)).
  split; [lra|]. exists (rev c). split; [exact Hc|]. rewrite total_rev. split; [lra|].
  split; [intros z; rewrite lin_opp, Hg, lin0, total_rev; lra|].
  intros z v Hv. rewrite lin_opp, Hg, lin0.
  pose proof (potential_cycle E _ v (rev c) Hv Hc) as Hp. rewrite total_rev in Hp.
  assert (Hle : total (fun e => ev e z) c <= total (fun e => ev e x + lin (gr e x) x z) c).
  { apply total_le. intros e He. apply concave. apply Hincl, He. }
  rewrite total_plus in Hle. lra.
Qed.
End Net.

Lemma cycles_of_ok g : (forall u v, In (u, v) (g_edges g) -> In u (g_nodes g) /\ In v (g_nodes g)) ->
  finds_negative_cycles (g_edges g) (cycles_of (A := R) g).
Proof.
  intros Hg u wr w cs u' Hw H. unfold cycles_of in H. apply bind_ok in H as ([c u1] & Hf & H). injection H as <- <-.
  destruct (find_neg_cycle_spec g Hg wr w Hw u) as (c' & u2 & Hf' & H1 & H2). rewrite Hf in Hf'. injection Hf' as <- <-.
  destruct c as [|e c]; [apply H1; reflexivity|]. destruct (H2 ltac:(discriminate)) as [[H3 _] H4]. split; assumption.
Qed.
