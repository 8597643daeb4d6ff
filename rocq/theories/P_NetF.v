(** Proofs about M_Net.v in an arithmetic whose addition is only known to be monotone (binary64) *)
From Coq Require Import Reals Lra Lia.
From Verif Require Import Base M_Net S_Net P_Net.

Section Ordered.
Context {A : Type} `{Num A}.
Local Open Scope num_scope.
Variables (good gw : A -> Prop).
Definition nle (x y : A) : Prop := nltb y x = false.
Hypothesis g_add : forall d w, good d -> gw w -> good (d + w).
Hypothesis lt_irr : forall x, good x -> nle x x.
Hypothesis lt_le_trans : forall x y z, good x -> good y -> good z -> nltb x y = true -> nle y z -> nltb x z = true.
Hypothesis le_lt_trans : forall x y z, good x -> good y -> good z -> nle x y -> nltb y z = true -> nltb x z = true.
Hypothesis le_trans : forall x y z, good x -> good y -> good z -> nle x y -> nle y z -> nle x z.
Hypothesis lt_le : forall x y, good x -> good y -> nltb x y = true -> nle x y.
Hypothesis add_mono : forall x y w, good x -> good y -> gw w -> nle x y -> nle (x + w) (y + w).

Variable g : digraph.
Notation E := (g_edges g).
Hypothesis Hg : forall u v, In (u, v) E -> In u (g_nodes g) /\ In v (g_nodes g).
Variable wr : edge -> res A.
Variable w : edge -> A.
Hypothesis Hw : forall e, In e E -> wr e = Ok (w e) /\ gw (w e).

Definition ok_predA (dist : nat -> A) (pred : nat -> option nat) : Prop :=
  forall v u, pred v = Some u -> In (u, v) E /\ nle (dist u + w (u, v)) (dist v).
Record agedA (k : nat) (es1 es2 : list edge) (dist : nat -> A) (pred : nat -> option nat) (L : nat -> nat) : Prop := {
  aa_le : forall v, (L v <= k)%nat;
  aa_pred : forall v, (1 <= L v)%nat -> exists u, pred v = Some u;
  aa_chain : forall v u, pred v = Some u -> (L v <= L u + 1)%nat;
  aa_done : forall u v, In (u, v) es1 -> nltb (dist u + w (u, v)) (dist v) = true -> (k <= L u)%nat;
  aa_todo : forall u v, In (u, v) es2 -> nltb (dist u + w (u, v)) (dist v) = true -> (k <= L u + 1)%nat }.

Lemma relax_loop_specA k : (1 <= k)%nat -> forall es1 es2 dist pred ch L,
  (forall e, In e (es1 ++ es2) <-> In e E) -> (forall v, good (dist v)) ->
  ok_predA dist pred -> agedA k es1 es2 dist pred L ->
  (ch = true -> exists v, L v = k) ->
  (ch = false -> forall e, In e es1 -> nle (dist (snd e)) (dist (fst e) + w e)) ->
  exists dist' pred' ch' L', relax_loop wr es2 dist pred ch = Ok (dist', pred', ch') /\ (forall v, good (dist' v)) /\
    ok_predA dist' pred' /\ agedA k (es1 ++ es2) [] dist' pred' L' /\
    (forall v, nle (dist' v) (dist v)) /\
    (ch' = true -> exists v, L' v = k) /\
    (ch' = false -> forall e, In e E -> nle (dist' (snd e)) (dist' (fst e) + w e)).
Proof.
  intros Hk es1 es2. revert es1. induction es2 as [|[u v] es2 IH]; intros es1 dist pred ch L HE Hgd Hok Hag Hch Hnc.
  - exists dist, pred, ch, L. rewrite app_nil_r in *. split; [reflexivity|]. repeat (split; [assumption|]).
    split; [intros; apply lt_irr, Hgd|]. split; [exact Hch|]. intros Hc e He. apply (Hnc Hc e). apply HE, He.
  - assert (He : In (u, v) E) by (apply HE, in_or_app; right; left; reflexivity).
    cbn [relax_loop]. destruct (Hw _ He) as [Hwe Hgw]. rewrite Hwe. cbn [bind].
    assert (HE' : forall e, In e ((es1 ++ [(u, v)]) ++ es2) <-> In e E) by (intros e; rewrite <- app_assoc; apply HE).
    replace (es1 ++ (u, v) :: es2) with ((es1 ++ [(u, v)]) ++ es2) by (rewrite <- app_assoc; reflexivity).
    set (d := dist u + w (u, v)). assert (Hd : good d) by (apply g_add; auto).
    destruct (nltb d (dist v)) eqn:B.
    + assert (Hdle : forall x, nle (vset dist v d x) (dist x)).
      { intros x. unfold vset. destruct (Nat.eqb_spec x v) as [->|]; [apply lt_le; auto|apply lt_irr, Hgd]. }
      assert (Hgd' : forall x, good (vset dist v d x)).
      { intros x. unfold vset. destruct (Nat.eqb x v); auto. }
      assert (Hne : forall x, x <> v -> vset dist v d x = dist x).
      { intros x Hx. unfold vset. destruct (Nat.eqb_spec x v); [contradiction|reflexivity]. }
      assert (Hv : vset dist v d v = d) by (unfold vset; rewrite Nat.eqb_refl; reflexivity).
      assert (Hok' : ok_predA (vset dist v d) (pset pred v u)).
      { intros y z. unfold pset. destruct (Nat.eqb_spec y v) as [->|Hy].
        - intros [= <-]. split; [exact He|]. rewrite Hv. apply add_mono; auto.
        - intros Hz. destruct (Hok y z Hz) as [H1 H2]. split; [exact H1|]. rewrite (Hne y Hy).
          destruct (Hw _ H1) as [_ Hg1].
          apply le_trans with (dist z + w (z, y)); auto. }
      destruct (IH (es1 ++ [(u, v)]) (vset dist v d) (pset pred v u) true (fun x => if Nat.eqb x v then k else L x))
        as (d1 & p1 & c1 & L1 & E1 & G1 & O1 & A1 & D1 & R1); try assumption.
      * destruct Hag as [Hle Hp Hc Hdn Ht].
        assert (HLu : (k <= L u + 1)%nat) by (apply (Ht u v); [left; reflexivity|exact B]).
        assert (HLm : forall x, (L x <= (if Nat.eqb x v then k else L x))%nat).
        { intros x. specialize (Hle x). destruct (Nat.eqb x v); lia. }
        constructor.
        -- intros x. specialize (Hle x). destruct (Nat.eqb x v); lia.
        -- intros x. unfold pset. destruct (Nat.eqb_spec x v) as [->|]; [intros _; eauto|apply Hp].
        -- intros y z. unfold pset. destruct (Nat.eqb_spec y v) as [->|Hy].
           ++ intros [= <-]. specialize (HLm u). lia.
           ++ intros Hz. specialize (Hc y z Hz). specialize (HLm z). lia.
        -- intros a b Hin Hlt. destruct (Nat.eqb_spec a v) as [->|Ha]; [lia|]. rewrite (Hne a Ha) in Hlt.
           assert (HinE : In (a, b) E).
           { apply HE'. apply in_or_app. left. exact Hin. }
           destruct (Hw _ HinE) as [_ Hgab].
           apply in_app_or in Hin as [Hin|[Hin|[]]].
           ++ apply (Hdn a b Hin). apply lt_le_trans with (vset dist v d b); auto.
           ++ injection Hin as <- <-. rewrite Hv in Hlt. fold d in Hlt. pose proof (lt_irr d Hd) as Hirr. unfold nle in Hirr. congruence.
        -- intros a b Hin Hlt. destruct (Nat.eqb_spec a v) as [->|Ha]; [lia|]. rewrite (Hne a Ha) in Hlt.
           assert (HinE : In (a, b) E).
           { apply HE'. apply in_or_app. right. exact Hin. }
           destruct (Hw _ HinE) as [_ Hgab].
           apply (Ht a b); [right; exact Hin|]. apply lt_le_trans with (vset dist v d b); auto.
      * intros _. exists v. rewrite Nat.eqb_refl. reflexivity.
      * discriminate.
      * exists d1, p1, c1, L1. split; [exact E1|]. split; [exact G1|]. split; [exact O1|]. split; [exact A1|]. split; [|exact R1].
        intros x. apply le_trans with (vset dist v d x); auto.
    + apply (IH (es1 ++ [(u, v)]) dist pred ch L); try assumption.
      * destruct Hag as [Hle Hp Hc Hdn Ht]. constructor; try assumption.
        -- intros a b Hin Hlt. apply in_app_or in Hin as [Hin|[Hin|[]]]; [apply (Hdn a b); assumption|].
           injection Hin as <- <-. fold d in Hlt. congruence.
        -- intros a b Hin Hlt. apply (Ht a b); [right; exact Hin|exact Hlt].
      * intros Hc e Hin. apply in_app_or in Hin as [Hin|[Hin|[]]]; [apply Hnc; assumption|]. subst e. cbn. exact B.
Qed.

(** the outcome of _is_negative on a cycle of predecessors *)
Lemma is_negative_loop_specA pred h m dist : (1 <= m)%nat -> pit pred m h = Some h ->
  (forall j, (0 < j < m)%nat -> pit pred j h <> Some h) -> ok_predA dist pred ->
  forall fuel i, (i < m)%nat -> (m - i <= fuel)%nat ->
  exists b, is_negative_loop fuel wr dist pred h (pit0 pred h i) = Ok b /\
    (b = true -> exists j, (i <= j < m)%nat /\
       nltb (dist (pit0 pred h (S j)) + w (pit0 pred h (S j), pit0 pred h j)) (dist (pit0 pred h j)) = true) /\
    (b = false -> forall j, (i <= j < m)%nat ->
       nltb (dist (pit0 pred h (S j)) + w (pit0 pred h (S j), pit0 pred h j)) (dist (pit0 pred h j)) = false).
Proof.
  intros Hm Hh Hmin Hok. induction fuel as [|fuel IH]; intros i Hi Hf; [lia|]. cbn [is_negative_loop].
  rewrite (pit0_pred pred h m Hm Hh). destruct (Hok _ _ (pit0_pred pred h m Hm Hh i)) as [Hin _].
  rewrite (proj1 (Hw _ Hin)). cbn [bind]. destruct (nltb _ _) eqn:B.
  - exists true. split; [reflexivity|]. split; [|discriminate]. intros _. exists i. split; [lia|exact B].
  - destruct (Nat.eqb_spec (pit0 pred h (S i)) h) as [Eh|Eh].
    + assert (S i = m).
      { destruct (Nat.eq_dec (S i) m) as [?|Hne]; [assumption|]. exfalso. apply (pit0_ne pred h m Hm Hh Hmin (S i)); [lia|exact Eh]. }
      exists false. split; [reflexivity|]. split; [discriminate|]. intros _ j Hj. replace j with i by lia. exact B.
    + assert (S i <> m) by (intros E; apply Eh; rewrite E; apply (pit0_m pred h m Hh)).
      destruct (IH (S i) ltac:(lia) ltac:(lia)) as (b & Eb & Ht & Hf'). exists b. split; [exact Eb|]. split.
      * intros Hb. destruct (Ht Hb) as (j & Hj & Hjl). exists j. split; [lia|exact Hjl].
      * intros Hb j Hj. destruct (Nat.eq_dec j i) as [->|]; [exact B|apply Hf'; [exact Hb|lia]].
Qed.

(** the outcome: labels, and either no edge to relax, or a cycle of edges none of which the labels exceed and one
    of which can be relaxed, or an AssertionError *)
Definition outcomeA (dist : nat -> A) (r : res (list edge * (nat -> A))) : Prop :=
  match r with
  | Ok (c, d') =>
      (forall v, good (d' v)) /\ (forall v, nle (d' v) (dist v)) /\
      (c = [] -> forall e, In e E -> nle (d' (snd e)) (d' (fst e) + w e)) /\
      (c <> [] -> simple_cycle E (rev c) /\ (length c <= length (g_nodes g))%nat /\
                  (forall e, In e c -> nle (d' (fst e) + w e) (d' (snd e))) /\
                  exists e, In e c /\ nltb (d' (fst e) + w e) (d' (snd e)) = true)
  | Raise x => x = AssertionError
  end.

Lemma neg_cycle_loop_specA : forall fuel k dist pred L,
  (1 <= k)%nat -> (Nat.max 1 (length (g_nodes g)) <= k + fuel - 1)%nat ->
  (k <= Nat.max 1 (length (g_nodes g)))%nat -> (forall v, good (dist v)) ->
  ok_predA dist pred -> agedA k [] E dist pred L ->
  outcomeA dist (neg_cycle_loop fuel g wr dist pred).
Proof.
  induction fuel as [|fuel IH]; intros k dist pred L Hk Hf Hkn Hgd Hok Hag; [lia|].
  cbn [neg_cycle_loop]. unfold relax.
  destruct (relax_loop_specA k Hk [] E dist pred false L)
    as (dist1 & pred1 & ch & L1 & Er1 & Hgd1 & Hok1 & Hag1 & Hdec & Hch & Hnc); try assumption.
  { intros e. reflexivity. } { discriminate. } { intros _ e []. }
  rewrite Er1. cbn [bind]. destruct ch.
  2:{ cbn [outcomeA]. split; [exact Hgd1|]. split; [exact Hdec|]. split; [auto|intros X; contradiction]. }
  assert (Hcl : forall x u, pred1 x = Some u -> In u (g_nodes g)) by (intros x u Hx; apply (Hg u x), (Hok1 x u Hx)).
  unfold find_cycle.
  destruct (find_cycle_loop_spec (g_nodes g) pred1 Hcl (g_nodes g) (fun _ => None)) as (r & Er & Hr).
  { intros x Hx; exact Hx. } { discriminate. } { discriminate. }
  rewrite Er. cbn [bind]. destruct r as [h|].
  - destruct Hr as ((p & Hp & Hph) & Hin). destruct (min_period pred1 h p Hp Hph) as (m & Hm & Hmh & Hmin).
    assert (Hml : (m <= length (g_nodes g))%nat) by (apply (period_le pred1 h m); (assumption || lia)).
    destruct (is_negative_loop_specA pred1 h m dist1 ltac:(lia) Hmh Hmin Hok1 (length (g_nodes g)) 0 ltac:(lia) ltac:(lia))
      as (b & Eb & Hbt & _).
    rewrite (pit0_0 pred1 h) in Eb. rewrite Eb. cbn [bind]. destruct b; [|reflexivity].
    pose proof (cycle_list_loop_spec pred1 h m ltac:(lia) Hmh Hmin (length (g_nodes g)) 0 ltac:(lia) ltac:(lia)) as Hcl2.
    rewrite (pit0_0 pred1 h) in Hcl2. rewrite Hcl2. cbn [bind]. rewrite Nat.sub_0_r.
    cbn [outcomeA]. split; [exact Hgd1|]. split; [exact Hdec|]. split.
    { intros Hc. unfold cyc in Hc. destruct m; [lia|discriminate]. }
    intros _. split; [|split; [|split]].
    + apply (cyc_simple pred1 h m ltac:(lia) Hmh Hmin). intros v u Hvu. apply (Hok1 v u Hvu).
    + unfold cyc. rewrite map_length, seq_length. exact Hml.
    + intros e He. unfold cyc in He. apply in_map_iff in He as (j & <- & Hj). cbn [fst snd].
      apply (Hok1 _ _ (pit0_pred pred1 h m ltac:(lia) Hmh j)).
    + destruct (Hbt eq_refl) as (j & Hj & Hlt). exists (pit0 pred1 h (S j), pit0 pred1 h j). split; [|exact Hlt].
      unfold cyc. apply in_map_iff. exists j. split; [reflexivity|]. apply in_seq. lia.
  - assert (Hlt : (k < length (g_nodes g))%nat).
    { destruct (Hch eq_refl) as (v & Hv).
      assert (Hchain : forall j, (j <= k)%nat -> exists y, pit pred1 j v = Some y /\ (k - j <= L1 y)%nat).
      { induction j as [|j IHj]; intros Hj; [exists v; split; [reflexivity|lia]|].
        destruct (IHj ltac:(lia)) as (y & Hy & HLy). destruct (aa_pred _ _ _ _ _ _ Hag1 y ltac:(lia)) as (u & Hu).
        exists u. split; [rewrite pit_S, Hy; exact Hu|]. pose proof (aa_chain _ _ _ _ _ _ Hag1 y u Hu). lia. }
      assert (Hvin : In v (g_nodes g)).
      { destruct (aa_pred _ _ _ _ _ _ Hag1 v ltac:(lia)) as (u & Hu). apply (Hg u v), (Hok1 v u Hu). }
      assert (Hp0 : forall j, (j <= k)%nat -> pit pred1 j v = Some (pit0 pred1 v j)).
      { intros j Hj. unfold pit0. destruct (Hchain j Hj) as (y & -> & _). reflexivity. }
      assert (Hin0 : forall j, (j <= k)%nat -> In (pit0 pred1 v j) (g_nodes g)).
      { intros j Hj. destruct j as [|j]; [exact Hvin|]. pose proof (Hp0 (S j) Hj) as Hx. rewrite pit_S, Hp0 in Hx by lia.
        apply (Hcl _ _ Hx). }
      assert (Hnd : NoDup (map (pit0 pred1 v) (seq 0 (S k)))).
      { assert (HH : forall s l, (s + l <= S k)%nat -> NoDup (map (pit0 pred1 v) (seq s l))); [|apply HH; lia].
        intros s l. revert s. induction l as [|l IHl]; intros s Hs; cbn [seq map]; constructor; [|apply IHl; lia].
        intros Hi. apply in_map_iff in Hi as (j & Ej & Hj). apply in_seq in Hj.
        pose proof (Hp0 j ltac:(lia)) as Hpj. replace j with (s + (j - s))%nat in Hpj by lia.
        rewrite pit_add, Hp0 in Hpj by lia. replace (s + (j - s))%nat with j in Hpj by lia. rewrite Ej in Hpj.
        destruct (Hr (pit0 pred1 v s) (Hin0 s ltac:(lia))) as (q & Hq).
        destruct (pit_cycle pred1 (j - s) (pit0 pred1 v s) ltac:(lia) Hpj q) as (y & Hy). congruence. }
      apply NoDup_incl_length with (l' := g_nodes g) in Hnd; [rewrite map_length, seq_length in Hnd; lia|].
      intros x Hx. apply in_map_iff in Hx as (j & <- & Hj). apply in_seq in Hj. apply Hin0. lia. }
    assert (Hrec : outcomeA dist1 (neg_cycle_loop fuel g wr dist1 pred1)).
    { apply (IH (S k) dist1 pred1 L1); try assumption; try lia.
      destruct Hag1 as [A1 A2 A3 A4 A5]. constructor; auto.
      - intros u v [].
      - intros u v Hin Hs. specialize (A4 u v Hin Hs). lia. }
    unfold outcomeA in *. destruct (neg_cycle_loop fuel g wr dist1 pred1) as [[c d']|x]; [|exact Hrec].
    destruct Hrec as (R1 & R2 & R3). split; [exact R1|]. split; [|exact R3].
    intros v. apply le_trans with (dist1 v); auto.
Qed.

Lemma find_neg_cycle_specA dist : (forall v, good (dist v)) ->
  outcomeA dist (find_neg_cycle g wr dist).
Proof.
  intros Hgd. unfold find_neg_cycle. apply (neg_cycle_loop_specA _ 1 dist (fun _ => None) (fun _ => 0%nat)); try lia.
  - exact Hgd.
  - discriminate.
  - constructor; intros; (lia || discriminate || contradiction).
Qed.
End Ordered.

(** ** binary64: numbers that are not NaN are ordered, and adding a finite number is monotone *)
From Flocq Require Import Core.Core IEEE754.BinarySingleNaN.
From Verif Require Import M_Float P_Float P_Float2 P_FSum S_Float2.
Local Open Scope R_scope.

Definition nnan (x : b64) : Prop := is_nan x = false.
Definition fin (x : b64) : Prop := is_finite x = true.
(** the place of a number on the line, the infinities beyond all finite numbers *)
Definition key (x : b64) : R := match x with B754_infinity s => if s then - pow2 1024 else pow2 1024 | _ => B2R x end.
Lemma p1024 : 0 < pow2 1024. Proof. apply bpow_gt_0. Qed.
Lemma fin_lt (x : b64) : Rabs (B2R x) < pow2 1024.
Proof. apply abs_B2R_lt_emax. Qed.
Lemma fin_bounds (x : b64) : - pow2 1024 < B2R x < pow2 1024.
Proof. assert (H := fin_lt x). apply Rabs_def2 in H. lra. Qed.
Lemma key_fin (x : b64) : fin x -> key x = B2R x.
Proof. destruct x; try discriminate; reflexivity. Qed.
Lemma key_range (x : b64) : nnan x -> - pow2 1024 <= key x <= pow2 1024.
Proof.
  intros Hx. assert (P := p1024). destruct x as [s|[]| |s m e Hb]; try discriminate Hx; cbn [key]; try lra.
  - cbn [B2R]. lra.
  - assert (H := fin_bounds (B754_finite s m e Hb)). lra.
Qed.
Lemma key_ltb (x y : b64) : nnan x -> nnan y -> Bltb x y = Rlt_bool (key x) (key y).
Proof.
  intros Hx Hy. assert (P := p1024).
  assert (D : forall z : b64, nnan z -> fin z \/ z = B754_infinity true \/ z = B754_infinity false).
  { intros z Hz. destruct z as [?|[]| |]; try discriminate Hz; auto; left; reflexivity. }
  destruct (D x Hx) as [Fx|[-> | ->]], (D y Hy) as [Fy|[-> | ->]].
  - rewrite f64_ltb by assumption. rewrite !key_fin by assumption. reflexivity.
  - rewrite (key_fin x Fx). cbn [key]. rewrite Rlt_bool_false by (assert (H := fin_bounds x); lra).
    destruct x as [?|?| |[]]; try discriminate Fx; reflexivity.
  - rewrite (key_fin x Fx). cbn [key]. rewrite Rlt_bool_true by (assert (H := fin_bounds x); lra).
    destruct x as [?|?| |[]]; try discriminate Fx; reflexivity.
  - rewrite (key_fin y Fy). cbn [key]. rewrite Rlt_bool_true by (assert (H := fin_bounds y); lra).
    destruct y as [?|?| |[]]; try discriminate Fy; reflexivity.
  - cbn [key]. rewrite Rlt_bool_false by lra. reflexivity.
  - cbn [key]. rewrite Rlt_bool_true by lra. reflexivity.
  - rewrite (key_fin y Fy). cbn [key]. rewrite Rlt_bool_false by (assert (H := fin_bounds y); lra).
    destruct y as [?|?| |[]]; try discriminate Fy; reflexivity.
  - cbn [key]. rewrite Rlt_bool_false by lra. reflexivity.
  - cbn [key]. rewrite Rlt_bool_false by lra. reflexivity.
Qed.
Lemma sign_true_neg (x : b64) : fin x -> Bsign x = true -> B2R x <= 0.
Proof.
  destruct x as [s|s| |s m e Hb]; try discriminate; intros _ Hs; cbn in Hs; subst; [cbn; lra|].
  cbn [B2R]. apply F2R_le_0. cbn. lia.
Qed.
Lemma sign_false_pos (x : b64) : fin x -> Bsign x = false -> 0 <= B2R x.
Proof.
  destruct x as [s|s| |s m e Hb]; try discriminate; intros _ Hs; cbn in Hs; subst; [cbn; lra|].
  cbn [B2R]. apply F2R_ge_0. cbn. lia.
Qed.
(** the sum of two finite numbers, overflow included *)
Lemma fadd_key (x w : b64) : fin x -> fin w ->
  nnan (fadd x w) /\ key (fadd x w) = Rmax (- pow2 1024) (Rmin (pow2 1024) (rnd (B2R x + B2R w))).
Proof.
  intros Hx Hw. assert (P := p1024).
  pose proof (Bplus_correct 53 1024 prec64 emax64 mode_NE x w Hx Hw) as C. cbn [round_mode] in C. fold (fadd x w) in C.
  destruct (Rlt_bool_spec (Rabs (rnd (B2R x + B2R w))) (pow2 1024)) as [L|L].
  - destruct C as (C1 & C2 & _). split; [unfold nnan; destruct (fadd x w); try discriminate C2; reflexivity|].
    rewrite key_fin by exact C2. rewrite C1. apply Rabs_def2 in L. rewrite Rmin_right by lra. rewrite Rmax_right by lra. reflexivity.
  - destruct C as (C1 & C2).
    assert (Ei : fadd x w = B754_infinity (Bsign x)).
    { apply B2SF_inj. rewrite C1. reflexivity. }
    rewrite Ei. split; [reflexivity|]. cbn [key]. destruct (Bsign x) eqn:S.
    + assert (H1 := sign_true_neg x Hx S). assert (H2 := sign_true_neg w Hw (eq_sym C2)).
      assert (H3 : rnd (B2R x + B2R w) <= 0) by (apply rnd_le; [lra|apply generic_format_0]).
      rewrite Rabs_left1 in L by exact H3. rewrite Rmin_right by lra. rewrite Rmax_left by lra. reflexivity.
    + assert (H1 := sign_false_pos x Hx S). assert (H2 := sign_false_pos w Hw (eq_sym C2)).
      assert (H3 : 0 <= rnd (B2R x + B2R w)) by (apply rnd_ge; [lra|apply generic_format_0]).
      rewrite Rabs_right in L by lra. rewrite Rmin_left by lra. rewrite Rmax_right by lra. reflexivity.
Qed.
Lemma nnan_cases (z : b64) : nnan z -> fin z \/ z = B754_infinity true \/ z = B754_infinity false.
Proof. intros Hz. destruct z as [?|[]| |]; try discriminate Hz; auto; left; reflexivity. Qed.
Lemma inf_add s (w : b64) : fin w -> fadd (B754_infinity s) w = B754_infinity s.
Proof. destruct w as [?|?| |]; try discriminate; reflexivity. Qed.
Lemma nnan_add (x w : b64) : nnan x -> fin w -> nnan (fadd x w).
Proof.
  intros Hx Hw. destruct (nnan_cases x Hx) as [Fx|[-> | ->]]; [apply fadd_key; assumption| |]; rewrite inf_add by exact Hw; reflexivity.
Qed.
Lemma ltb_false (x y : b64) : nnan x -> nnan y -> (Bltb y x = false <-> key x <= key y).
Proof.
  intros Hx Hy. rewrite key_ltb by assumption. destruct (Rlt_bool_spec (key y) (key x)); split; intros; (lra || discriminate || reflexivity).
Qed.
Lemma ltb_true (x y : b64) : nnan x -> nnan y -> (Bltb x y = true <-> key x < key y).
Proof.
  intros Hx Hy. rewrite key_ltb by assumption. destruct (Rlt_bool_spec (key x) (key y)); split; intros; (lra || discriminate || reflexivity).
Qed.
Lemma fadd_mono (x y w : b64) : nnan x -> nnan y -> fin w -> key x <= key y -> key (fadd x w) <= key (fadd y w).
Proof.
  intros Hx Hy Hw Hle. assert (P := p1024).
  assert (R1 := key_range _ (nnan_add x w Hx Hw)). assert (R2 := key_range _ (nnan_add y w Hy Hw)).
  destruct (nnan_cases x Hx) as [Fx|[-> | ->]], (nnan_cases y Hy) as [Fy|[-> | ->]];
    repeat rewrite inf_add in * by exact Hw; repeat rewrite inf_add by exact Hw; cbn [key] in *; try lra;
    try (rewrite (key_fin x Fx) in Hle; assert (B := fin_bounds x); lra);
    try (rewrite (key_fin y Fy) in Hle; assert (B := fin_bounds y); lra).
  destruct (fadd_key x w Fx Hw) as [_ ->]. destruct (fadd_key y w Fy Hw) as [_ ->].
  rewrite (key_fin x Fx), (key_fin y Fy) in Hle.
  assert (M : rnd (B2R x + B2R w) <= rnd (B2R y + B2R w)) by (apply round_le; [typeclasses eauto|typeclasses eauto|lra]).
  apply Rle_max_compat_l, Rle_min_compat_l, M.
Qed.

Lemma find_neg_cycle_spec64 g wr w dist :
  (forall u v, In (u, v) (g_edges g) -> In u (g_nodes g) /\ In v (g_nodes g)) ->
  (forall e, In e (g_edges g) -> wr e = Ok (w e) /\ fin (w e)) -> (forall v, nnan (dist v)) ->
  @outcomeA b64 FNum nnan g w dist (@find_neg_cycle b64 FNum g wr dist).
Proof.
  intros Hg Hw Hd. apply (@find_neg_cycle_specA b64 FNum nnan fin); try assumption; unfold nle; cbn [nltb nadd FNum].
  - exact nnan_add.
  - intros x Hx. apply ltb_false; auto. lra.
  - intros x y z Hx Hy Hz H1 H2. apply ltb_true in H1; auto. apply ltb_false in H2; auto. apply ltb_true; auto. lra.
  - intros x y z Hx Hy Hz H1 H2. apply ltb_false in H1; auto. apply ltb_false in H2; auto. apply ltb_false; auto. lra.
  - intros x y Hx Hy H1. apply ltb_true in H1; auto. apply ltb_false; auto. lra.
  - intros x y w0 Hx Hy Hw0 H1. apply ltb_false in H1; auto. apply ltb_false; auto using nnan_add. apply fadd_mono; auto.
Qed.

(** ** weights and labels that are multiples of one power of two, with room for all the sums: no rounding *)
Section Exact.
Variable ex : Z.
Hypothesis Hex : (-1074 <= ex <= 970)%Z.
Notation scaled := (multiple64 ex).
Lemma scaled_mono B B' x : (B <= B')%Z -> scaled B x -> scaled B' x.
Proof. intros HB (Hf & m & Hm & Ha). split; [exact Hf|]. exists m. split; [exact Hm|lia]. Qed.
Lemma scaled_range m : (Z.abs m <= 2 ^ 53)%Z -> Rabs (IZR m * pow2 ex) < pow2 1024.
Proof.
  intros Hm. rewrite Rabs_mult, (Rabs_right (pow2 ex)) by (apply Rle_ge, bpow_ge_0). rewrite <- abs_IZR.
  apply Rle_lt_trans with (pow2 53 * pow2 ex).
  - apply Rmult_le_compat_r; [apply bpow_ge_0|]. change (pow2 53) with (IZR (2 ^ 53)). apply IZR_le, Hm.
  - rewrite <- bpow_plus. apply bpow_lt. lia.
Qed.
Lemma scaled_add D W x y : (D + W <= 2 ^ 53)%Z -> scaled D x -> scaled W y ->
  scaled (D + W) (fadd x y) /\ B2R (fadd x y) = B2R x + B2R y.
Proof.
  intros HB (Fx & m & Em & Hm) (Fy & k & Ek & Hk).
  assert (Es : B2R x + B2R y = IZR (m + k) * pow2 ex) by (rewrite Em, Ek, plus_IZR; ring).
  destruct (fadd_exact x y Fx Fy) as [H1 H2].
  - rewrite Es. apply fmt_scaled; lia.
  - rewrite Es. apply scaled_range. lia.
  - split; [|exact H1]. split; [exact H2|]. exists (m + k)%Z. rewrite H1, Es. split; [reflexivity|lia].
Qed.

Variable g : digraph.
Variable wr : edge -> res b64.
Variable w : edge -> b64.
Variable W : Z.
Hypothesis Hw : forall e, In e (g_edges g) -> wr e = Ok (w e) /\ scaled W (w e).
Hypothesis HW : (0 <= W)%Z.
Variable wrR : edge -> res R.
Hypothesis HwR : forall e, In e (g_edges g) -> wrR e = Ok (B2R (w e)).
Definition sim (D : Z) (dist : nat -> b64) (dR : nat -> R) : Prop := forall v, scaled D (dist v) /\ dR v = B2R (dist v).

Lemma sim_ltb D dist dR u v : (D + W <= 2 ^ 53)%Z -> sim D dist dR -> In (u, v) (g_edges g) ->
  Bltb (fadd (dist u) (w (u, v))) (dist v) = Rltb (dR u + B2R (w (u, v))) (dR v).
Proof.
  intros HB Hs Hin. destruct (Hw _ Hin) as [_ Hsw]. destruct (Hs u) as [Su ->]. destruct (Hs v) as [Sv ->].
  destruct (scaled_add D W _ _ HB Su Hsw) as [[F _] <-]. rewrite f64_ltb by (exact F || apply Sv).
  set (a := B2R (fadd _ _)). set (b := B2R (dist v)). clearbody a b.
  destruct (Rlt_bool_spec a b) as [L|L]; symmetry; [apply Rltb_true, L|apply Rltb_false; lra].
Qed.

Lemma relax_sim : forall es D dist dR pred ch, incl es (g_edges g) -> (D + Z.of_nat (length es) * W <= 2 ^ 53)%Z -> sim D dist dR ->
  exists d1 dR1 p1 c1, @relax_loop b64 FNum wr es dist pred ch = Ok (d1, p1, c1) /\
    relax_loop wrR es dR pred ch = Ok (dR1, p1, c1) /\ sim (D + Z.of_nat (length es) * W) d1 dR1.
Proof.
  induction es as [|[u v] es IH]; intros D dist dR pred ch Hincl HB Hs.
  - exists dist, dR, pred, ch. cbn [relax_loop length]. split; [reflexivity|split; [reflexivity|]].
    intros x. destruct (Hs x) as [H1 H2]. split; [apply (scaled_mono D); [lia|exact H1]|exact H2].
  - assert (Hin : In (u, v) (g_edges g)) by (apply Hincl; left; reflexivity).
    assert (Hincl' : incl es (g_edges g)) by (intros e He; apply Hincl; right; exact He).
    cbn [length] in HB. rewrite Nat2Z.inj_succ in HB.
    cbn [relax_loop]. rewrite (proj1 (Hw _ Hin)), (HwR _ Hin). cbn [bind]. cbn [nltb nadd FNum RNum].
    rewrite (sim_ltb D dist dR u v) by (try assumption; nia).
    assert (E : (D + Z.of_nat (S (length es)) * W = (D + W) + Z.of_nat (length es) * W)%Z) by lia.
    cbn [length]. rewrite E.
    destruct (Rltb _ _).
    + apply IH; [exact Hincl'|lia|]. intros x. unfold vset. destruct (Nat.eqb_spec x v) as [->|].
      * destruct (Hs u) as [Su Eu]. destruct (scaled_add D W _ _ ltac:(nia) Su (proj2 (Hw _ Hin))) as [S1 S2].
        split; [exact S1|]. rewrite S2, Eu. reflexivity.
      * destruct (Hs x) as [H1 H2]. split; [apply (scaled_mono D); [lia|exact H1]|exact H2].
    + apply IH; [exact Hincl'|lia|]. intros x. destruct (Hs x) as [H1 H2]. split; [apply (scaled_mono D); [lia|exact H1]|exact H2].
Qed.
Lemma is_negative_sim D dist dR pred h : (D + W <= 2 ^ 53)%Z -> sim D dist dR ->
  (forall v u, pred v = Some u -> In (u, v) (g_edges g)) -> forall fuel v,
  @is_negative_loop b64 FNum fuel wr dist pred h v = is_negative_loop fuel wrR dR pred h v.
Proof.
  intros HB Hs Hp. induction fuel as [|fuel IH]; intros v; [reflexivity|]. cbn [is_negative_loop].
  destruct (pred v) as [u|] eqn:Ep; [|reflexivity]. assert (Hin := Hp v u Ep).
  rewrite (proj1 (Hw _ Hin)), (HwR _ Hin). cbn [bind]. cbn [nltb nadd FNum RNum].
  rewrite (sim_ltb D dist dR u v) by assumption. rewrite IH. reflexivity.
Qed.
Lemma neg_cycle_sim : forall fuel D dist dR pred,
  (D + (Z.of_nat fuel * Z.of_nat (length (g_edges g)) + 1) * W <= 2 ^ 53)%Z -> sim D dist dR ->
  (forall v u, pred v = Some u -> In (u, v) (g_edges g)) ->
  match @neg_cycle_loop b64 FNum fuel g wr dist pred, neg_cycle_loop fuel g wrR dR pred with
  | Ok (c, d), Ok (c', d') => c = c' /\ (forall v, fin (d v) /\ d' v = B2R (d v))
  | Raise x, Raise y => x = y
  | _, _ => False
  end.
Proof.
  induction fuel as [|fuel IH]; intros D dist dR pred HB Hs Hp; [reflexivity|]. cbn [neg_cycle_loop]. unfold relax.
  rewrite Nat2Z.inj_succ in HB.
  assert (HL := Nat2Z.is_nonneg (length (g_edges g))). assert (HF := Nat2Z.is_nonneg fuel).
  assert (HLW := Z.mul_nonneg_nonneg _ _ HL HW). assert (HFLW := Z.mul_nonneg_nonneg _ _ HF HLW).
  replace ((Z.succ (Z.of_nat fuel) * Z.of_nat (length (g_edges g)) + 1) * W)%Z
    with (Z.of_nat fuel * (Z.of_nat (length (g_edges g)) * W) + Z.of_nat (length (g_edges g)) * W + W)%Z in HB by ring.
  destruct (relax_sim (g_edges g) D dist dR pred false (incl_refl _) ltac:(lia) Hs) as (d1 & dR1 & p1 & c1 & E1 & E2 & Hs1).
  rewrite E2. pose proof (relax_loop_edges g wr _ _ _ _ _ _ _ (incl_refl _) Hp E1) as Hp1.
  rewrite E1. cbn [bind]. destruct c1.
  - destruct (find_cycle g p1) as [[h|]|x]; cbn [bind]; [| |reflexivity].
    + rewrite (is_negative_sim (D + Z.of_nat (length (g_edges g)) * W)%Z d1 dR1 p1 h ltac:(lia) Hs1 Hp1).
      destruct (is_negative_loop _ wrR dR1 p1 h h) as [[|]|x]; cbn [bind]; try reflexivity.
      destruct (cycle_list_loop _ p1 h h) as [c|x]; cbn [bind]; [|reflexivity]. split; [reflexivity|].
      intros v. destruct (Hs1 v) as [[F _] E]. auto.
    + apply IH with (D := (D + Z.of_nat (length (g_edges g)) * W)%Z); [|exact Hs1|exact Hp1].
      rewrite Z.mul_add_distr_r, Z.mul_1_l, <- Z.mul_assoc. lia.
  - split; [reflexivity|]. intros v. destruct (Hs1 v) as [[F _] E]. auto.
Qed.
End Exact.
